(** Time over exact arithmetic: C26, and completion of motions of finite duration. *)
Require Import List Arith NArith ZArith Bool Reals Lra Lia ZifyBool ZifyNat ZifyN.
From Verif Require Import Base BaseProofs EventModel StepModel StepSpec StepSignalsProofs Num NumR MotionModel CtrlModel CtrlSpec CtrlProofs CtrlQueueProofs CtrlIdleProofs CtrlRSpec CtrlTrackProofs.
Import ListNotations.
Open Scope R_scope.

Section Time.
Variable M : machine xr.
Notation A := x_arith.

(** Well-formed ring, without the abstract queue. *)
Definition wfq (c : ctrl xr) : Prop :=
  (length (c_items c) = 32%nat /\ c_head c < 32 /\ c_level c <= 32)%N.

Lemma rel_wfq {c a} : rel (D:=xr) A c a -> wfq c.
Proof. intros (H1 & H2 & H3 & _). repeat split; auto. Qed.

Lemma queue_pop (c : ctrl xr) : wfq c -> (0 < c_level c)%N ->
  queue A c = c_getHead A c :: queue A (c_pop c) /\ wfq (c_pop c) /\ c_level (c_pop c) = (c_level c - 1)%N.
Proof.
  intros (H1 & H2 & H3) HL.
  assert (EL : sub32 (c_level c) 1 = (c_level c - 1)%N).
  { unfold sub32, w32. replace (c_level c + two32 - 1)%N with ((c_level c - 1) + 1 * two32)%N by lia.
    rewrite N.mod_add by discriminate. apply N.mod_small. unfold two32; lia. }
  unfold wfq, queue, c_pop, c_getHead, item. cbn [c_with_queue c_items c_head c_level]. rewrite EL.
  unfold add32, w32, mb_length. rewrite (N.mod_small (c_head c + 1) two32) by (unfold two32; lia).
  split; [|split; [|auto]].
  - apply contents_pop; auto. rewrite H1. reflexivity.
  - split; auto. split; [apply N.mod_lt; lia|lia].
Qed.

Lemma move_frame (c c' : ctrl xr) : c_move A M c = Ok c' ->
  c_items c' = c_items c /\ c_head c' = c_head c /\ c_level c' = c_level c /\ c_st c' = c_st c /\
  c_state c' = c_state c /\ c_events c' = c_events c.
Proof.
  unfold c_move. intro H. cbn [c_moveAxes axes] in H. unfold rbind in H.
  assert (Q : forall o dist i (d d' : ctrl xr), c_moveAxis A M o dist d i = Ok d' ->
     c_items d' = c_items d /\ c_head d' = c_head d /\ c_level d' = c_level d /\ c_st d' = c_st d /\
     c_state d' = c_state d /\ c_events d' = c_events d).
  { clear. intros o dist i d d' H. unfold c_moveAxis, c_trackAxis in H.
    destruct (mo_isMoving A o i); [|inversion H; subst; repeat split; auto].
    unfold rbind in H. destruct (c_decide A M d i _) as [[x|]|]; [| |discriminate].
    - apply stepAxis_ok in H. destruct H as (_ & _ & ->). repeat split.
    - inversion H; subst; repeat split. }
  destruct (c_moveAxis _ _ _ _ c 0) as [c1|] eqn:E0; [|discriminate].
  destruct (c_moveAxis _ _ _ _ c1 1) as [c2|] eqn:E1; [|discriminate].
  destruct (c_moveAxis _ _ _ _ c2 2) as [c3|] eqn:E2; [|discriminate].
  inversion H; subst c3; clear H.
  destruct (Q _ _ _ _ _ E0) as (? & ? & ? & ? & ? & ?). destruct (Q _ _ _ _ _ E1) as (? & ? & ? & ? & ? & ?).
  destruct (Q _ _ _ _ _ E2) as (? & ? & ? & ? & ? & ?). repeat split; congruence.
Qed.

Lemma beyond_spec (t : R) (d : xr) : xltb d (XF t) = true -> d = XM \/ exists r, d = XF r /\ r < t.
Proof. destruct d; cbn; try discriminate; auto. intro H. apply rltb_true in H. eauto. Qed.

Lemma advance_time fuel : forall c c' w t, wfq c -> (0 < c_level c)%N -> clock c w t ->
  Forall notXM (queue A c) -> c_advance A M fuel c = Ok c' ->
  exists dn ds, queue A c = dn ++ queue A c' /\ map duration_of dn = map XF ds /\
   c_events c' = c_events c ++ (if (c_level c' =? 0)%N
      then repeat motionCompleted (length dn - 1) ++ [motionStopped; motionCompleted; allMotionsCompleted]
      else repeat motionCompleted (length dn)) /\
   wfq c' /\ (c_level c' <> 0%N -> c_state c' = c_state c /\ clock c' w (t - rsum ds) /\
                xltb (duration_of (c_getHead A c')) (XF (t - rsum ds)) = false) /\
   (c_level c' = 0%N -> c_state c' = ms_stopped /\ dn <> [] /\ clock c' w 0) /\
   (st_index (c_st c') <= st_index (c_st c))%N.
Proof.
  assert (MV : forall c c' w t, wfq c -> (0 < c_level c)%N -> clock c w t ->
     xltb (duration_of (c_getHead A c)) (XF t) = false -> c_move A M c = Ok c' ->
    exists dn ds, queue A c = dn ++ queue A c' /\ map duration_of dn = map XF ds /\
     c_events c' = c_events c ++ (if (c_level c' =? 0)%N
      then repeat motionCompleted (length dn - 1) ++ [motionStopped; motionCompleted; allMotionsCompleted]
      else repeat motionCompleted (length dn)) /\
     wfq c' /\ (c_level c' <> 0%N -> c_state c' = c_state c /\ clock c' w (t - rsum ds) /\
                xltb (duration_of (c_getHead A c')) (XF (t - rsum ds)) = false) /\
     (c_level c' = 0%N -> c_state c' = ms_stopped /\ dn <> [] /\ clock c' w 0) /\
   (st_index (c_st c') <= st_index (c_st c))%N).
  { intros c c' w t WF HL CK NB H. destruct (move_frame _ _ H) as (E1 & E2 & E3 & E4 & E5 & E6).
    exists [], []. cbn [app map length repeat rsum fold_right]. rewrite Rminus_0_r.
    assert (EH : c_getHead A c' = c_getHead A c) by (unfold c_getHead, item; congruence).
    assert (EQ : queue A c' = queue A c) by (unfold queue; congruence).
    rewrite EQ, E6, E3, E4, E5, EH. split; auto. split; auto. split.
    { replace (c_level c =? 0)%N with false by lia. now rewrite app_nil_r. }
    split. { unfold wfq in *. rewrite E1, E2, E3. auto. }
    split. { intros _. split; auto. split; auto. unfold clock in *. rewrite E4. auto. }
    split; lia. }
  assert (LAST : forall c w t, wfq c -> (0 < c_level c)%N -> clock c w t ->
     Forall notXM (queue A c) ->
     xltb (duration_of (c_getHead A c)) (XF t) = true -> (1 <? c_level c)%N = false ->
     let c1 := c_pop c in
     let c' := c_emit (c_with_state (c_with_st c1 (st_initialize A (c_st c1))) ms_stopped)
                 [motionStopped; motionCompleted; allMotionsCompleted] in
    exists dn ds, queue A c = dn ++ queue A c' /\ map duration_of dn = map XF ds /\
     c_events c' = c_events c ++ (if (c_level c' =? 0)%N
      then repeat motionCompleted (length dn - 1) ++ [motionStopped; motionCompleted; allMotionsCompleted]
      else repeat motionCompleted (length dn)) /\
     wfq c' /\ (c_level c' <> 0%N -> c_state c' = c_state c /\ clock c' w (t - rsum ds) /\
                xltb (duration_of (c_getHead A c')) (XF (t - rsum ds)) = false) /\
     (c_level c' = 0%N -> c_state c' = ms_stopped /\ dn <> [] /\ clock c' w 0) /\
   (st_index (c_st c') <= st_index (c_st c))%N).
  { intros c w t WF HL CK NM B EL. cbv zeta.
    destruct (queue_pop c WF HL) as (Q & WF' & L').
    assert (L0 : c_level (c_pop c) = 0%N) by lia.
    destruct (beyond_spec _ _ B) as [X|(d & Ed & Lt)].
    { exfalso. rewrite Q in NM. inversion NM; subst. apply H1. exact X. }
    exists [c_getHead A c], [d]. cbn [map]. rewrite Ed.
    split. { change (queue A (c_emit _ _)) with (queue A (c_pop c)). rewrite Q. reflexivity. }
    split; auto. change (c_level (c_emit _ _)) with (c_level (c_pop c)). rewrite L0. cbn [N.eqb length Nat.sub repeat app].
    split; [reflexivity|]. split; [exact WF'|]. split; [congruence|].
    split.
    - intros _. split; [reflexivity|]. split; [discriminate|].
      destruct CK as (W & o & O & T & TT). split; [exact W|]. exists 0. cbn. split; auto. split; [lra|auto].
    - cbn. lia. }
  induction fuel; intros c c' w t WF HL CK NM H; cbn [c_advance] in H;
    pose proof CK as (W & o & O & T & TT);
    change (st_isBeyond A (c_st c) (p_duration (mo_prof (c_getHead A c))))
      with (xltb (duration_of (c_getHead A c)) (st_time (c_st c))) in H; rewrite TT in H;
    (destruct (xltb (duration_of (c_getHead A c)) (XF t)) eqn:B; [destruct (1 <? c_level c)%N eqn:EL|]).
  - discriminate.
  - inversion H; subst c'. apply LAST; auto.
  - eapply MV; eauto.
  - destruct (queue_pop c WF HL) as (Q & WF' & L').
    destruct (beyond_spec _ _ B) as [X|(d & Ed & Lt)].
    { exfalso. rewrite Q in NM. inversion NM; subst. apply H2. exact X. }
    match type of H with c_advance A M fuel ?x = _ => set (c2 := x) in * end.
    destruct (IHfuel c2 c' w (t - d)) as (dn & ds & Q1 & Q2 & Q3 & Q4 & Q5 & Q6 & Q7).
    + exact WF'.
    + change (c_level c2) with (c_level (c_pop c)). lia.
    + unfold clock, c2. cbn [c_emit c_with_st c_st st_width st_initNext st_offset st_index st_time c_pop c_with_queue].
      split; auto. exists (t - d). change (p_duration (mo_prof (c_getHead A c))) with (duration_of (c_getHead A c)).
      rewrite Ed. cbn [nsub aF x_arith x_num xsub]. split; auto. split; auto. cbn. lra.
    + change (queue A c2) with (queue A (c_pop c)). rewrite Q in NM. inversion NM; auto.
    + exact H.
    + exists (c_getHead A c :: dn), (d :: ds). cbn [map app length rsum fold_right]. fold (rsum ds).
      change (queue A c2) with (queue A (c_pop c)) in Q1. rewrite Q, Q1, Q2, Ed. split; auto. split; auto.
      assert (EV : c_events c2 = c_events c ++ [motionCompleted]) by reflexivity.
      rewrite EV in Q3. split.
      { rewrite Q3, <- app_assoc. f_equal. destruct (c_level c' =? 0)%N eqn:EZ; [|reflexivity].
        destruct Q6 as (_ & NE & _); [lia|]. destruct dn; [congruence|]. cbn [length Nat.sub]. rewrite Nat.sub_0_r. reflexivity. }
      split; auto. split.
      { intro NZ. destruct (Q5 NZ) as (S1 & C1 & B1). replace (t - (d + rsum ds)) with (t - d - rsum ds) by lra.
        split; auto. }
      split. { intro Z0. destruct (Q6 Z0) as (S1 & C1 & B1). split; auto. split; [discriminate|auto]. }
      change (st_index (c_st c2)) with 0%N in Q7. lia.
  - inversion H; subst c'. apply LAST; auto.
  - eapply MV; eauto.
Qed.

(** One tick of a running controller. *)
Lemma tick_time c c' w t : wfq c -> (0 < c_level c)%N -> clock c w t -> Forall notXM (queue A c) ->
  c_state c <> ms_stopped -> (st_index (c_st c) + 1 < two32)%N ->
  c_tick A M c = Ok c' ->
  exists dn ds, queue A c = dn ++ queue A c' /\ map duration_of dn = map XF ds /\ wfq c' /\
    (st_index (c_st c') <= st_index (c_st c) + 1)%N /\
    (c_state c' <> ms_stopped -> (0 < c_level c')%N /\ clock c' w (t + w - rsum ds) /\ c_state c' = c_state c /\
       c_events c' = c_events c ++ repeat motionCompleted (length dn) /\
       xltb (duration_of (c_getHead A c')) (XF (t + w - rsum ds)) = false) /\
    (c_state c' = ms_stopped -> p_tStop (mo_prof (c_getHead A c)) = XP -> c_level c' = 0%N /\
       c_events c' = c_events c ++ repeat motionCompleted (length dn - 1) ++ [motionStopped; motionCompleted; allMotionsCompleted] /\ dn <> []).
Proof.
  intros WF HL CK NM NS HI H. unfold c_tick, c_isRunning in H. cbn [c_state c_with_sig] in H.
  set (d := c_with_st (c_with_sig c (sg_next (c_sig c))) (st_next A (c_st c))) in *.
  assert (H' : (let e := if st_isBeyond A (c_st d) (p_tStop (mo_prof (c_getHead A d)))
                then c_emit (c_with_state d ms_stopped) [motionStopped] else d in
                c_advance A M (N.to_nat (c_level e)) e) = Ok c').
  { destruct (c_state c); try congruence; exact H. }
  clear H. cbv zeta in H'.
  assert (CKd : clock d w (t + w) /\ st_index (c_st d) = (st_index (c_st c) + 1)%N).
  { destruct CK as (W & o & O & T & TT). unfold clock, d.
    cbn [c_with_st c_with_sig c_st st_next st_width st_offset st_index st_time].
    unfold add32, w32. rewrite N.mod_small by lia. rewrite W, O.
    cbn [nadd nmul nofZ aF x_arith x_num xadd xmul]. rewrite N2Z.inj_add, plus_IZR. split; [|auto].
    split; auto. exists o. split; auto. split; [|f_equal]; cbn [Z.of_N]; lra. }
  destruct CKd as (CKd & ID).
  destruct (st_isBeyond A (c_st d) (p_tStop (mo_prof (c_getHead A d)))) eqn:EB.
  - set (e := c_emit (c_with_state d ms_stopped) [motionStopped]) in *.
    destruct (advance_time (N.to_nat (c_level e)) e c' w (t + w)) as (dn & ds & Q1 & Q2 & Q3 & Q4 & Q5 & Q6 & Q7); auto.
    exists dn, ds. split; [exact Q1|]. split; auto. split; auto.
    split. { change (st_index (c_st e)) with (st_index (c_st d)) in Q7. lia. }
    split.
    + intro NS'. exfalso. apply NS'. destruct (N.eq_dec (c_level c') 0) as [Z0|NZ].
      * apply Q6; auto. * destruct (Q5 NZ) as (S1 & _). exact S1.
    + intros _ TS. exfalso. change (c_getHead A d) with (c_getHead A c) in EB. unfold st_isBeyond in EB.
      rewrite TS in EB. destruct CKd as (_ & ? & _ & _ & TT). rewrite TT in EB. discriminate.
  - destruct (advance_time (N.to_nat (c_level d)) d c' w (t + w)) as (dn & ds & Q1 & Q2 & Q3 & Q4 & Q5 & Q6 & Q7); auto.
    change (c_events d) with (c_events c) in Q3. change (c_state d) with (c_state c) in Q5.
    exists dn, ds. split; [exact Q1|]. split; auto. split; auto.
    split. { lia. }
    destruct (N.eq_dec (c_level c') 0) as [Z0|NZ].
    + destruct (Q6 Z0) as (S1 & NE & CK0). split; [congruence|]. intros _ _. split; auto.
      rewrite Z0 in Q3. cbn [N.eqb] in Q3. auto.
    + destruct (Q5 NZ) as (S1 & CK1 & B1). split.
      * intros _. split; [lia|]. split; auto. split; auto. split; auto.
        replace (c_level c' =? 0)%N with false in Q3 by lia. auto.
      * congruence.
Qed.

Lemma rsum_app a b : rsum (a ++ b) = rsum a + rsum b.
Proof. unfold rsum. induction a; cbn [app fold_right]; [lra|]. rewrite IHa. lra. Qed.

Lemma tick_stopped_state (c c' : ctrl xr) : c_state c = ms_stopped -> c_tick A M c = Ok c' -> c_state c' = ms_stopped.
Proof. intros H E. rewrite tick_stopped in E by auto. inversion E; subst. exact H. Qed.

Lemma ticks_stopped n : forall (c c' : ctrl xr), c_state c = ms_stopped -> ticks_run A M n c = Ok c' ->
  c_state c' = ms_stopped /\ queue A c' = queue A c /\ c_events c' = c_events c /\ c_level c' = c_level c.
Proof.
  induction n; intros c c' H E; cbn [ticks_run] in E.
  - inversion E; subst; auto.
  - rewrite tick_stopped in E by auto. cbn [rbind] in E. apply IHn in E; auto.
Qed.

(** n ticks that leave the controller running. *)
Lemma ticks_time n : forall c c' w t, wfq c -> (0 < c_level c)%N -> clock c w t -> Forall notXM (queue A c) ->
  (st_index (c_st c) + N.of_nat n < two32)%N ->
  ticks_run A M n c = Ok c' -> c_state c' <> ms_stopped ->
  exists dn ds, queue A c = dn ++ queue A c' /\ map duration_of dn = map XF ds /\ wfq c' /\ (0 < c_level c')%N /\
    clock c' w (t + INR n * w - rsum ds) /\ c_state c' = c_state c /\
    c_events c' = c_events c ++ repeat motionCompleted (length dn) /\
    (st_index (c_st c') <= st_index (c_st c) + N.of_nat n)%N.
Proof.
  induction n; intros c c' w t WF HL CK NM HI H NS; cbn [ticks_run] in H.
  - inversion H; subst. exists [], []. cbn [app map INR rsum fold_right length repeat].
    replace (t + 0 * w - 0) with t by lra. rewrite app_nil_r. repeat (split; auto). lia.
  - unfold rbind in H. destruct (c_tick A M c) as [c1|] eqn:E; [|discriminate].
    assert (NS0 : c_state c <> ms_stopped).
    { intro S0. apply NS. assert (c_state c1 = ms_stopped) by (eapply tick_stopped_state; eauto).
      apply (ticks_stopped n c1 c'); auto. }
    assert (NS1 : c_state c1 <> ms_stopped).
    { intro S1. apply NS. apply (ticks_stopped n c1 c'); auto. }
    destruct (tick_time c c1 w t) as (dn & ds & Q1 & Q2 & Q3 & Q4 & Q5 & _); auto; [lia|].
    destruct (Q5 NS1) as (L1 & CK1 & S1 & EV1 & B1).
    destruct (IHn c1 c' w (t + w - rsum ds)) as (dn2 & ds2 & R1 & R2 & R3 & R4 & R5 & R6 & R7 & R9); auto.
    { rewrite Q1 in NM. apply Forall_app in NM. tauto. }
    { lia. }
    exists (dn ++ dn2), (ds ++ ds2). rewrite !map_app, Q2, R2, rsum_app.
    replace (t + INR (S n) * w - (rsum ds + rsum ds2)) with (t + w - rsum ds + INR n * w - rsum ds2) by (rewrite S_INR; lra).
    split. { rewrite Q1, R1. now rewrite app_assoc. }
    split; auto. split; auto. split; auto. split; auto. split; [congruence|].
    split. { rewrite R7, EV1, app_length, repeat_app, <- app_assoc. reflexivity. }
    lia.
Qed.

(** Completion: finite durations and no scheduled stop. *)
Lemma count_app e l1 l2 : count_event e (l1 ++ l2) = (count_event e l1 + count_event e l2)%nat.
Proof. unfold count_event. now rewrite filter_app, app_length. Qed.
Lemma count_repeat e x n : count_event e (repeat x n) = if event_eq_dec x e then n else 0%nat.
Proof. unfold count_event. induction n; cbn; destruct (event_eq_dec x e) eqn:E; auto. cbn. now rewrite IHn. Qed.

Lemma rsum_nonneg_app (a b : list R) : Forall (fun d => 0 <= d) b -> rsum a <= rsum (a ++ b).
Proof.
  intro H. rewrite rsum_app. enough (0 <= rsum b) by lra. unfold rsum. induction H; cbn [fold_right]; [lra|]. lra.
Qed.

Lemma completes n : forall c w t ds, wfq c -> (0 < c_level c)%N -> clock c w t ->
  Forall2 finite_motion (queue A c) ds -> Forall (fun d => 0 <= d) ds ->
  c_state c <> ms_stopped -> 0 < w ->
  (n = 0%nat -> xltb (duration_of (c_getHead A c)) (XF t) = false) ->
  (st_index (c_st c) + N.of_nat n < two32)%N -> rsum ds < t + INR n * w ->
  ticks_run A M n c = UB \/
  exists c', ticks_run A M n c = Ok c' /\ c_state c' = ms_stopped /\ c_level c' = 0%N /\
    exists k, c_events c' = c_events c ++ repeat motionCompleted k ++ [motionStopped; motionCompleted; allMotionsCompleted]
      /\ S k = length ds.
Proof.
  induction n; intros c w t ds WF HL CK FM DP NS W0 HB HI HS; cbn [ticks_run].
  - exfalso. specialize (HB eq_refl). cbn [INR] in HS. destruct (queue_pop c WF HL) as (Q & _). rewrite Q in FM. inversion FM as [|o d q ds' [F1 F2] F3]; subst.
    rewrite F1 in HB. cbn in HB. apply rltb_false in HB. cbn [rsum fold_right] in HS. inversion DP; subst.
    pose proof (rsum_nonneg_app [] ds' H2). cbn [rsum fold_right app] in H. unfold rsum in *. lra.
  - unfold rbind. destruct (c_tick A M c) as [c1|] eqn:E; [|auto].
    assert (NM : Forall notXM (queue A c)).
    { clear - FM. induction FM; constructor; auto. destruct H as [H _]. unfold notXM. rewrite H. discriminate. }
    destruct (tick_time c c1 w t) as (dn & es & Q1 & Q2 & Q3 & Q4 & Q5 & Q6); auto; [lia|].
    assert (SP : exists ds1 ds2, ds = ds1 ++ ds2 /\ ds1 = es /\ Forall2 finite_motion (queue A c1) ds2 /\ length ds1 = length dn).
    { rewrite Q1 in FM. apply Forall2_app_inv_l in FM. destruct FM as (ds1 & ds2 & G1 & G2 & ->).
      exists ds1, ds2. split; auto. split.
      - clear - G1 Q2. revert es Q2. induction G1; intros [|e es] Q; try discriminate; auto. cbn in Q.
        inversion Q. f_equal; auto. destruct H as [H _]. congruence.
      - split; auto. symmetry. eapply F2_length; eauto. }
    destruct SP as (ds1 & ds2 & -> & -> & F2 & LD).
    destruct (c_state c1) eqn:ES.
    3: { (* stopped: all completed *)
         destruct (Q6 eq_refl) as (L0 & EV & NE).
         { destruct (queue_pop c WF HL) as (Q & _). rewrite Q in FM. inversion FM as [|o d q ds' [F1 F3] F4]; subst. auto. }
         destruct (ticks_run A M n c1) as [c'|] eqn:ER; [|auto]. right.
         destruct (ticks_stopped n c1 c' ES ER) as (S1 & _ & EV1 & L1).
         exists c'. split; auto. split; auto. split; [congruence|]. exists (length dn - 1)%nat. rewrite EV1, EV.
         split; auto. assert (ds2 = []) as ->.
         { apply F2_length in F2. unfold queue in F2. rewrite contents_length, L0 in F2. destruct ds2; [auto|discriminate]. }
         rewrite app_nil_r. destruct dn; [congruence|]. cbn in *. lia. }
    all: destruct Q5 as (L1 & CK1 & S1 & EV1 & B1); [discriminate|].
    all: apply Forall_app in DP; destruct DP as [DP1 DP2].
    all: destruct (IHn c1 w (t + w - rsum es) ds2) as [U|(c' & R1 & R2 & R3 & k & R4 & R5)]; auto; try lia;
      try (rewrite ES; discriminate).
    all: try (rewrite rsum_app, S_INR in HS; lra).
    all: right; exists c'; split; auto; split; auto; split; auto; exists (length dn + k)%nat; split;
      [rewrite R4, EV1, repeat_app, <- !app_assoc; reflexivity | rewrite app_length; lia].
Qed.

(** Histories of appends and signal computations. *)
Lemma calc_ticks k : forall (c c' : ctrl xr) s, length (c_pos c) = 3%nat -> (sg_ticks (c_sig c) + N.of_nat k < two32)%N ->
  c_calc A M k c = Ok (Some (c', s)) ->
  exists n c1, ticks_run A M n c = Ok c1 /\ c' = c_with_sig c1 (c_sig c') /\
    timeBefore s = (sg_ticks (c_sig c) + N.of_nat n)%N /\ length (c_pos c') = 3%nat /\ sg_ticks (c_sig c') = 0%N /\ 
    sg_maxTicks (c_sig c') = sg_maxTicks (c_sig c).
Proof.
  induction k; intros c c' s HL HT H; cbn [c_calc] in H; [discriminate|]. unfold rbind in H.
  destruct (c_tick A M c) as [c1|] eqn:E; [|discriminate].
  destruct (tick_ticks A M c c1 HL E) as (T & X & L1). unfold add32, w32 in T. rewrite N.mod_small in T by lia.
  destruct (_ || _).
  - cbn [sg_output] in H. inversion H; subst. exists 1%nat, c1. cbn [ticks_run]. unfold rbind. rewrite E.
    split; [reflexivity|]. split; [reflexivity|]. cbn [timeBefore c_sig c_with_sig sg_ticks sg_maxTicks c_pos].
    split; [lia|]. split; [assumption|]. split; [reflexivity|assumption].
  - destruct (IHk c1 c' s L1 ltac:(lia) H) as (n & c2 & R & EC & TB & L2 & T0 & X2).
    exists (S n), c2. cbn [ticks_run]. unfold rbind. rewrite E. split; auto. split; auto.
    split; [lia|]. split; auto. split; auto. congruence.
Qed.

Lemma append_queue c m : wfq c -> (0 < c_level c)%N ->
  wfq (c_append A M c m) /\ (0 < c_level (c_append A M c m))%N /\
  c_getHead A (c_append A M c m) = c_getHead A c /\
  exists new, queue A (c_append A M c m) = queue A c ++ new /\
    (new = [] \/ exists o, new = [mo_set A M o m (c_fo c) (c_strategy c)]).
Proof.
  intros (H1 & H2 & H3) HL. unfold c_append, c_isFull, mb_length. destruct (32 <=? c_level c)%N eqn:E; cbn [negb].
  - split; [repeat split; auto|]. split; [auto|]. split; auto. exists []. rewrite app_nil_r. auto.
  - unfold c_push. unfold add32, w32. rewrite !(N.mod_small _ two32) by (unfold two32; lia).
    cbv iota zeta.
    cbn [c_set_item c_with_items c_with_queue c_items c_head c_level].
    assert (LW : forall x, length (rset (c_items c) ((c_head c + c_level c) mod mb_length)%N x) = 32%nat).
    { intro x. unfold rset. rewrite upd_length. auto. }
    split. { unfold wfq. cbn [c_set_item c_with_items c_with_queue c_items c_head c_level]. split; [apply LW|]. lia. }
    split; [cbn [c_set_item c_with_items c_with_queue c_level]; lia|].
    match goal with |- context [mo_set A M ?o m ?f ?st] => set (x := mo_set A M o m f st) end.
    assert (EQ : queue A (c_set_item (c_with_queue c (c_head c) (c_level c + 1) (N.max (c_levelMax c) (c_level c + 1)))
              ((c_head c + c_level c) mod mb_length)%N x) = queue A c ++ [x]).
    { unfold queue. cbn [c_set_item c_with_items c_with_queue c_items c_head c_level].
      apply contents_push; unfold mb_length; [rewrite H1; reflexivity|lia|lia]. }
    split.
    + pose proof (f_equal (fun l => nth 0 l (mo_zero A)) EQ) as E0. cbn beta in E0.
      unfold queue in E0. rewrite app_nth1 in E0 by (rewrite contents_length; lia).
      rewrite !nth_contents in E0 by (cbn [c_set_item c_with_items c_with_queue c_level]; lia).
      cbn [c_set_item c_with_items c_with_queue c_items c_head] in E0.
      replace ((c_head c + N.of_nat 0) mod mb_length)%N with (c_head c) in E0
        by (rewrite N.add_0_r, N.mod_small; unfold mb_length; lia).
      exact E0.
    + exists [x]. split; [exact EQ|]. right. eexists. unfold x. reflexivity.
Qed.

Lemma queue_with_sig (c : ctrl xr) g : queue A (c_with_sig c g) = queue A c.
Proof. reflexivity. Qed.

Lemma run_stopped ops : forall c c' recs, only_calc_append ops -> length (c_pos c) = 3%nat ->
  sg_ticks (c_sig c) = 0%N -> (N.max 1 (sg_maxTicks (c_sig c)) < two32)%N ->
  c_state c = ms_stopped -> c_run A M c ops = Ok (c', recs) ->
  c_state c' = ms_stopped.
Proof.
  induction ops as [|o r IH]; intros c c' recs OC LP TK MX S0 H; cbn [c_run] in H.
  - inversion H; subst; auto.
  - unfold rbind in H. destruct (c_step A M c o) as [[c1 s1]|] eqn:E; [|discriminate].
    destruct (c_run A M c1 r) as [[c2 s2]|] eqn:E2; [|discriminate]. inversion H; subst; clear H.
    assert (OC' : only_calc_append r) by (intros x Hx; apply OC; now right).
    destruct (OC o) as [->|(m & ->)]; [now left| |].
    + cbn [c_step] in E. unfold rbind in E. destruct (c_calc A M _ c) as [[[cc ss]|]|] eqn:EC; try discriminate.
      inversion E; subst; clear E.
      destruct (fun Q => calc_ticks (N.to_nat (N.max 1 (sg_maxTicks (c_sig c)))) c c1 ss LP Q EC) as (n & c3 & R & X & _ & L1 & T1 & X1); [lia|].
      eapply (IH c1); eauto; try congruence. rewrite X. cbn [c_with_sig c_state]. apply (ticks_stopped n c c3); auto.
    + cbn [c_step] in E. inversion E; subst; clear E. destruct (append_keep A M c m) as (E1 & E3 & E4 & E5).
      eapply (IH _ _ _ OC'); [| | | |eauto]; try rewrite E1; try rewrite E3; auto. congruence.
Qed.

Lemma run_time ops : forall c c' recs w t, only_calc_append ops -> (forall m, In (OAppend m) ops -> timed M m) ->
  length (c_pos c) = 3%nat -> sg_ticks (c_sig c) = 0%N -> (N.max 1 (sg_maxTicks (c_sig c)) < two32)%N ->
  wfq c -> (0 < c_level c)%N -> clock c w t -> Forall notXM (queue A c) ->
  (st_index (c_st c) + sum_times recs < two32)%N ->
  c_run A M c ops = Ok (c', recs) -> c_state c' <> ms_stopped ->
  exists new dn ds, queue A c ++ new = dn ++ queue A c' /\ map duration_of dn = map XF ds /\
    Forall (fun o => exists m o0 fo s, In (OAppend m) ops /\ o = mo_set A M o0 m fo s) new /\
    clock c' w (t + IZR (Z.of_N (sum_times recs)) * w - rsum ds) /\
    (count_event motionCompleted (c_events c') = count_event motionCompleted (c_events c) + length dn)%nat.
Proof.
  induction ops as [|o r IH]; intros c c' recs w t OC TM LP TK MX WF HL CK NM HI H NS; cbn [c_run] in H.
  - inversion H; subst. exists [], [], []. cbn [app map sum_times fold_right rsum length].
    replace (t + IZR (Z.of_N 0) * w - 0) with t by (cbn [Z.of_N]; lra). rewrite app_nil_r.
    repeat (split; [solve [auto|lia]|]). lia.
  - unfold rbind in H. destruct (c_step A M c o) as [[c1 s1]|] eqn:E; [|discriminate].
    destruct (c_run A M c1 r) as [[c2 s2]|] eqn:E2; [|discriminate]. inversion H; subst; clear H.
    assert (OC' : only_calc_append r) by (intros x Hx; apply OC; now right).
    assert (TM' : forall m, In (OAppend m) r -> timed M m) by (intros x Hx; apply TM; now right).
    destruct (OC o) as [->|(m & ->)]; [now left| |].
    + cbn [c_step] in E. unfold rbind in E. destruct (c_calc A M _ c) as [[[cc ss]|]|] eqn:EC; try discriminate.
      inversion E; subst; clear E.
      destruct (fun Q => calc_ticks (N.to_nat (N.max 1 (sg_maxTicks (c_sig c)))) c c1 ss LP Q EC) as (n & c3 & R & X & TB & L1 & T1 & X1); [lia|].
      cbn [app sum_times fold_right] in HI. fold (sum_times s2) in HI. rewrite TK in TB.
      assert (NS1 : c_state c3 <> ms_stopped).
      { intro S1. apply NS. eapply (run_stopped r c1); eauto; try congruence. rewrite X. exact S1. }
      destruct (ticks_time n c c3 w t) as (dn & ds & Q1 & Q2 & Q3 & Q4 & Q5 & Q6 & Q7 & Q9); auto; [lia|].
      assert (EQ1 : queue A c1 = queue A c3) by (rewrite X; reflexivity).
      destruct (IH c1 c' s2 w (t + INR n * w - rsum ds)) as (new & dn2 & ds2 & R1 & R2 & R3 & R4 & R5); auto; try congruence.
      { rewrite X. exact Q3. } { rewrite X. exact Q4. } { rewrite X. exact Q5. }
      { rewrite EQ1. rewrite Q1 in NM. apply Forall_app in NM. tauto. }
      { rewrite X. change (st_index (c_st (c_with_sig c3 (c_sig c1)))) with (st_index (c_st c3)). lia. }
      exists new, (dn ++ dn2), (ds ++ ds2).
      cbn [app sum_times fold_right]. fold (sum_times s2). rewrite TB, rsum_app.
      replace (t + IZR (Z.of_N (0 + N.of_nat n + sum_times s2)) * w - (rsum ds + rsum ds2))
        with (t + INR n * w - rsum ds + IZR (Z.of_N (sum_times s2)) * w - rsum ds2)
        by (rewrite N.add_0_l, N2Z.inj_add, plus_IZR, nat_N_Z, <- INR_IZR_INZ; lra).
      split. { rewrite Q1, <- !app_assoc, <- R1, EQ1. reflexivity. }
      split. { rewrite !map_app, Q2, R2. reflexivity. }
      split. { eapply Forall_impl; [|exact R3]. cbv beta. intros a (m & o0 & fo & s & I & Ea). exists m, o0, fo, s. split; auto. now right. }
      split; auto. rewrite R5. rewrite X. change (c_events (c_with_sig c3 (c_sig c1))) with (c_events c3).
      rewrite Q7, count_app, count_repeat, app_length. destruct (event_eq_dec motionCompleted motionCompleted); [lia|congruence].
    + cbn [c_step] in E. inversion E; subst; clear E. destruct (append_keep A M c m) as (E1 & E3 & E4 & E5).
      destruct (append_queue c m WF HL) as (WF1 & HL1 & HH & new1 & EQ & NW).
      cbn [app] in HI |- *.
      destruct (IH (c_append A M c m) c' s2 w t) as (new & dn2 & ds2 & R1 & R2 & R3 & R4 & R5); auto; try congruence.
      { unfold clock. rewrite E4. exact CK. }
      { rewrite EQ. apply Forall_app. split; auto. destruct NW as [->|(o & ->)]; constructor; auto.
        apply TM. now left. }
      exists (new1 ++ new), dn2, ds2. rewrite app_assoc, <- EQ. split; auto. split; auto. split.
      { apply Forall_app. split.
        - destruct NW as [->|(o & ->)]; constructor; auto. exists m, o, (c_fo c), (c_strategy c). split; [now left|auto].
        - eapply Forall_impl; [|exact R3]. cbv beta. intros a (x & o0 & fo & s & I & Ea). exists x, o0, fo, s. split; auto. now right. }
      split; auto.
      rewrite R5. unfold c_append. destruct (negb _); [reflexivity|].
      cbn [c_emit c_events]. rewrite count_app. cbn. lia.
Qed.

Lemma time_conserved_lemma m width ops0 c0 recs0 ops c recs w t :
  (N.max 1 m < two32)%N ->
  stops_guarded A M (c_init A m width) ops0 -> c_run A M (c_init A m width) ops0 = Ok (c0, recs0) ->
  c_state c0 = ms_running -> clock c0 w t -> Forall notXM (queue A c0) ->
  only_calc_append ops -> (forall mo, In (OAppend mo) ops -> timed M mo) ->
  (st_index (c_st c0) + sum_times recs < two32)%N ->
  c_run A M c0 ops = Ok (c, recs) -> c_state c <> ms_stopped ->
  exists new dn ds, queue A c0 ++ new = dn ++ queue A c /\ map duration_of dn = map XF ds /\
    Forall (fun o => exists m o0 fo s, In (OAppend m) ops /\ o = mo_set A M o0 m fo s) new /\
    clock c w (t + IZR (Z.of_N (sum_times recs)) * w - rsum ds) /\
    (count_event motionCompleted (c_events c) = count_event motionCompleted (c_events c0) + length dn)%nat.
Proof.
  intros HM G R0 S0 CK NM OC TM HI R NS.
  destruct (run_rel A M ops0 _ aq0 c0 recs0 (rel_init A m width) G R0) as (es & a & _ & Q & _).
  destruct (run_sig_good A M m width ops0 c0 recs0 R0) as (LP & MX & TK & _).
  pose proof (rel_level _ _ _ Q) as HL.
  apply run_time with (ops := ops); auto; try congruence.
  - exact (rel_wfq Q).
  - destruct Q as (_ & _ & _ & _ & Q5 & Q6). assert (aq_q a <> []) by (apply Q6; congruence).
    destruct (aq_q a); [congruence|]. cbn [length] in HL. lia.
Qed.

Lemma completion_lemma m width ops0 c0 recs0 w t ds n :
  stops_guarded A M (c_init A m width) ops0 -> c_run A M (c_init A m width) ops0 = Ok (c0, recs0) ->
  c_state c0 = ms_running -> clock c0 w t -> 0 < w ->
  Forall2 finite_motion (queue A c0) ds -> Forall (fun d => 0 <= d) ds ->
  (1 <= n)%nat -> (st_index (c_st c0) + N.of_nat n < two32)%N -> rsum ds < t + INR n * w ->
  ticks_run A M n c0 = UB \/
  exists c, ticks_run A M n c0 = Ok c /\ c_state c = ms_stopped /\ queue A c = [] /\
    exists k, c_events c = c_events c0 ++ repeat motionCompleted k ++ [motionStopped; motionCompleted; allMotionsCompleted]
      /\ S k = length ds.
Proof.
  intros G R0 S0 CK W0 FM DP N1 HI HS.
  destruct (run_rel A M ops0 _ aq0 c0 recs0 (rel_init A m width) G R0) as (es & a & _ & Q & _).
  pose proof (rel_level _ _ _ Q) as HL.
  destruct (completes n c0 w t ds) as [U|(c & E1 & E2 & E3 & X)]; auto.
  - exact (rel_wfq Q).
  - destruct Q as (_ & _ & _ & _ & Q5 & Q6). assert (aq_q a <> []) by (apply Q6; congruence).
    destruct (aq_q a); [congruence|]. cbn [length] in HL. lia.
  - congruence.
  - intro; lia.
  - right. exists c. split; auto. split; auto. split; auto. unfold queue. now rewrite E3.
Qed.
End Time.
