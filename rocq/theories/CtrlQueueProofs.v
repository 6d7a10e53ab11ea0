(** The motion queue of the controller refines a plain list (C23); C25. *)
Require Import List Arith NArith ZArith Bool Lia ZifyBool ZifyNat ZifyN.
From Verif Require Import Base BaseProofs EventModel StepModel StepSpec StepSignalsProofs Num MotionModel CtrlModel CtrlSpec CtrlProofs.
Import ListNotations.
Open Scope N_scope.

Section CtrlQ.
Context {D F : Type} (A : arith D F) (M : machine F).
Local Notation K := (aF A).

(** What re-planning leaves alone. *)
Definition key (o : motion F) := (mo_type o, mo_traj o, mo_per o).

Lemma key_optimize o fo s : key (mo_optimize A M o fo s) = key o.
Proof. unfold mo_optimize. destruct (is_move (mo_type o)); reflexivity. Qed.
Lemma key_optimize_at o fo s t : key (mo_optimize_at A M o fo s t) = key o.
Proof. unfold mo_optimize_at. now rewrite key_optimize. Qed.

Lemma map_upd {X Y} (f : X -> Y) l i x : map f (upd l i x) = upd (map f l) i (f x).
Proof. revert i; induction l; intros [|i]; cbn; auto. now rewrite IHl. Qed.
Lemma upd_nth_same {X} (l : list X) i d : upd l i (nth i l d) = l.
Proof. revert i; induction l; intros [|i]; cbn; auto. now rewrite IHl. Qed.

Lemma keys_set (c : ctrl F) i o : key o = key (item A c i) ->
  map key (c_items (c_set_item c i o)) = map key (c_items c).
Proof.
  intro H. cbn [c_set_item c_with_items c_items]. unfold rset. rewrite map_upd, H. unfold item, rget.
  rewrite <- (map_nth key). apply upd_nth_same.
Qed.

Lemma keys_pair (c : ctrl F) j : map key (c_items (c_optimizePair A M c j)) = map key (c_items c).
Proof.
  unfold c_optimizePair. rewrite keys_set by now rewrite key_optimize.
  rewrite keys_set by reflexivity.
  destruct (j =? 0); rewrite keys_set by (rewrite ?key_optimize, ?key_optimize_at; reflexivity);
    now rewrite keys_set by reflexivity.
Qed.

Lemma keys_optimize (c : ctrl F) : map key (c_items (c_optimize A M c)) = map key (c_items c).
Proof.
  unfold c_optimize. destruct (c_level c =? 0); auto. destruct (c_level c =? 1).
  - apply keys_set. now rewrite key_optimize_at.
  - generalize (junctions c) as l. intro l. revert c. induction l as [|j l IH]; intro c; cbn [fold_left]; auto.
    now rewrite IH, keys_pair.
Qed.

Lemma keys_length (c c' : ctrl F) : map key (c_items c') = map key (c_items c) -> length (c_items c') = length (c_items c).
Proof. intro H. apply (f_equal (@length _)) in H. now rewrite !map_length in H. Qed.

Lemma holds_key m o o' : key o = key o' -> holds A m o -> holds A m o'.
Proof. unfold key, holds. intros H. inversion H. congruence. Qed.

(** Refinement relation. *)
Definition rel (c : ctrl F) (a : aq (D:=D)) : Prop :=
  length (c_items c) = 32%nat /\ c_head c < 32 /\ c_level c <= 32 /\
  Forall2 (holds A) (aq_q a) (queue A c) /\ c_state c = aq_state a /\
  (aq_state a <> ms_stopped -> aq_q a <> []).

Lemma queue_keys (c c' : ctrl F) : map key (c_items c') = map key (c_items c) ->
  c_head c' = c_head c -> c_level c' = c_level c -> map key (queue A c') = map key (queue A c).
Proof.
  intros H HH HL. unfold queue, contents. rewrite !map_map, HH, HL. apply map_ext. intro i.
  unfold rget. rewrite <- !(map_nth key). now rewrite H.
Qed.

Lemma holds_keys q l l' : map key l' = map key l -> Forall2 (holds A) q l -> Forall2 (holds A) q l'.
Proof.
  intros H F2. revert l' H. induction F2; intros [|o' t'] E; try discriminate; constructor.
  - cbn in E. assert (key o' = key y) by congruence. eapply holds_key; [|eauto]. congruence.
  - apply IHF2. cbn in E. congruence.
Qed.

Lemma F2_length {X Y} (P : X -> Y -> Prop) l l' : Forall2 P l l' -> length l = length l'.
Proof. induction 1; cbn; auto. Qed.

Lemma rel_level c a : rel c a -> c_level c = N.of_nat (length (aq_q a)).
Proof.
  intros (_ & _ & _ & F2 & _). apply F2_length in F2. unfold queue in F2. rewrite contents_length in F2. lia.
Qed.

Lemma rel_optimize c a : rel c a -> rel (c_optimize A M c) a.
Proof.
  intros (H1 & H2 & H3 & H4 & H5 & H6). destruct (optimize_keep A M c) as (_ & _ & _ & _ & E5 & E6 & E7 & _).
  pose proof (keys_optimize c) as KK. unfold rel. rewrite E5, E6, E7.
  rewrite (keys_length _ _ KK). repeat split; auto.
  eapply holds_keys; [|exact H4]. now apply queue_keys.
Qed.

Lemma holds_set o m fo s : holds A m (mo_set A M o m fo s).
Proof.
  unfold mo_set, holds. destruct (sm_type m) eqn:E; cbn [is_move is_pause];
  try (match goal with |- context [mo_optimize A M ?x fo s] =>
        pose proof (key_optimize x fo s) as Kx; unfold key in Kx; inversion Kx end;
       cbn [mo_type mo_traj mo_per] in *; repeat split; congruence).
  all: cbn; repeat split; congruence.
Qed.

Lemma rel_append c a m : rel c a ->
  exists es a', aq_op (F:=F) a (OAppend m) es a' /\ rel (c_append A M c m) a' /\
    c_events (c_append A M c m) = c_events c ++ es.
Proof.
  intros R. pose proof (rel_level _ _ R) as HL. destruct R as (H1 & H2 & H3 & H4 & H5 & H6).
  unfold c_append, c_isFull, mb_length. cbn [aq_op].
  destruct (32 <=? c_level c) eqn:E; cbn [negb].
  - replace (length (aq_q a) <? 32)%nat with false by lia.
    exists [motionBufferOverflow], a. repeat split; auto.
  - replace (length (aq_q a) <? 32)%nat with true by lia.
    eexists [], _. split; [split; reflexivity|]. cbn [c_push fst snd].
    unfold add32, w32, mb_length. rewrite (N.mod_small (c_head c + c_level c)) by (unfold two32; lia).
    rewrite (N.mod_small (c_level c + 1)) by (unfold two32; lia).
    split; [|cbn [c_set_item c_with_items c_with_queue c_events]; now rewrite app_nil_r].
    unfold rel. cbn [c_set_item c_with_items c_with_queue c_items c_head c_level c_state aq_q aq_state].
    rewrite rset_length. split; auto. split; auto. split; [lia|].
    split; [|split; [auto|intros ? EQ; destruct (aq_q a); discriminate]].
    unfold queue. cbn [c_set_item c_with_items c_with_queue c_items c_head c_level].
    unfold mb_length. rewrite contents_push by lia.
    apply Forall2_app; [exact H4|]. constructor; [apply holds_set|constructor].
Qed.

Lemma rel_emit c a es : rel (c_emit c es) a <-> rel c a.
Proof. unfold rel, c_emit. cbn. tauto. Qed.

Lemma rel_pop c a x q : rel c a -> aq_q a = x :: q ->
  c_level (c_pop c) = c_level c - 1 /\
  length (c_items (c_pop c)) = 32%nat /\ c_head (c_pop c) < 32 /\ c_level (c_pop c) <= 32 /\
  Forall2 (holds A) q (queue A (c_pop c)).
Proof.
  intros R Q. pose proof (rel_level _ _ R) as HL. rewrite Q in HL. cbn [length] in HL.
  destruct R as (H1 & H2 & H3 & H4 & _). 
  assert (EL : sub32 (c_level c) 1 = c_level c - 1).
  { unfold sub32, w32. replace (c_level c + two32 - 1) with ((c_level c - 1) + 1 * two32) by lia.
    rewrite N.mod_add by discriminate. apply N.mod_small. unfold two32; lia. }
  unfold c_pop. cbn [c_with_queue c_items c_head c_level]. rewrite EL.
  unfold add32, w32, mb_length. rewrite (N.mod_small (c_head c + 1) two32) by (unfold two32; lia).
  split; auto. split; auto. split; [apply N.mod_lt; lia|]. split; [lia|].
  unfold queue in *. cbn [c_items c_head c_level c_with_queue]. unfold mb_length in *.
  rewrite contents_pop in H4 by lia. rewrite Q in H4. inversion H4; subst; auto.
Qed.

Lemma advance_rel fuel : forall c a c', rel c a -> aq_q a <> [] -> c_advance A M fuel c = Ok c' ->
  exists fin a', aq_q a = fin ++ aq_q a' /\ aq_done a' = aq_done a ++ fin /\ rel c' a' /\
    if (length (aq_q a') =? 0)%nat
    then c_events c' = c_events c ++ repeat motionCompleted (length fin - 1)
                    ++ [motionStopped; motionCompleted; allMotionsCompleted]
         /\ aq_state a' = ms_stopped
    else c_events c' = c_events c ++ repeat motionCompleted (length fin)
         /\ aq_state a' = aq_state a.
Proof.
  assert (MV : forall c a c', length (c_pos c) = 3%nat \/ True -> rel c a -> aq_q a <> [] -> c_move A M c = Ok c' ->
     rel c' a /\ c_events c' = c_events c).
  { clear. intros c a c' _ R NE H. unfold c_move in H. cbn [c_moveAxes axes] in H. unfold rbind in H.
    assert (Q : forall o dist i (d d' : ctrl F), rel d a -> c_moveAxis A M o dist d i = Ok d' -> rel d' a /\ c_events d' = c_events d).
    { clear. intros o dist i d d' R H. unfold c_moveAxis, c_trackAxis, c_decide in H.
      destruct (mo_isMoving A o i); [|inversion H; subst; auto].
      unfold rbind in H. destruct (needStepForward A M d i _) as [[|]|]; [| |discriminate].
      - apply stepAxis_ok in H. destruct H as (_ & _ & ->). split; [exact R|reflexivity].
      - destruct (needStepBackward A M d i _).
        + apply stepAxis_ok in H. destruct H as (_ & _ & ->). split; [exact R|reflexivity].
        + inversion H; subst; auto. }
    destruct (c_moveAxis _ _ _ _ c 0) as [c1|] eqn:E0; [|discriminate].
    destruct (c_moveAxis _ _ _ _ c1 1) as [c2|] eqn:E1; [|discriminate].
    destruct (c_moveAxis _ _ _ _ c2 2) as [c3|] eqn:E2; [|discriminate].
    inversion H; subst c3; clear H.
    destruct (Q _ _ _ _ _ R E0) as (R0 & X0). destruct (Q _ _ _ _ _ R0 E1) as (R1 & X1).
    destruct (Q _ _ _ _ _ R1 E2) as (R2 & X2). split; auto. congruence. }
  assert (MV2 : forall c a c', rel c a -> aq_q a <> [] -> c_move A M c = Ok c' ->
    exists fin a', aq_q a = fin ++ aq_q a' /\ aq_done a' = aq_done a ++ fin /\ rel c' a' /\
    if (length (aq_q a') =? 0)%nat
    then c_events c' = c_events c ++ repeat motionCompleted (length fin - 1)
                    ++ [motionStopped; motionCompleted; allMotionsCompleted]
         /\ aq_state a' = ms_stopped
    else c_events c' = c_events c ++ repeat motionCompleted (length fin)
         /\ aq_state a' = aq_state a).
  { intros c a c' R NE H. destruct (MV c a c' (or_intror I) R NE H) as (R' & E').
    exists [], a. cbn [app length repeat]. rewrite !app_nil_r. split; [auto|]. split; [auto|]. split; [exact R'|].
    destruct (aq_q a); [congruence|]. cbn [length Nat.eqb]. auto. }
  assert (LAST : forall c a, rel c a -> aq_q a <> [] -> (1 <? c_level c) = false ->
    let c1 := c_pop c in
    let c' := c_emit (c_with_state (c_with_st c1 (st_initialize A (c_st c1))) ms_stopped)
                 [motionStopped; motionCompleted; allMotionsCompleted] in
    exists fin a', aq_q a = fin ++ aq_q a' /\ aq_done a' = aq_done a ++ fin /\ rel c' a' /\
    if (length (aq_q a') =? 0)%nat
    then c_events c' = c_events c ++ repeat motionCompleted (length fin - 1)
                    ++ [motionStopped; motionCompleted; allMotionsCompleted]
         /\ aq_state a' = ms_stopped
    else c_events c' = c_events c ++ repeat motionCompleted (length fin)
         /\ aq_state a' = aq_state a).
  { intros c a R NE H. pose proof (rel_level _ _ R) as HL.
    destruct (aq_q a) as [|x [|y q]] eqn:EQ; [congruence| |cbn [length] in HL; lia].
    destruct (rel_pop _ _ _ _ R EQ) as (P0 & P1 & P2 & P3 & P4). cbv zeta.
    exists [x], (mkAQ [] (aq_done a ++ [x]) ms_stopped). cbn [aq_q aq_done aq_state length Nat.eqb Nat.sub repeat app].
    split; auto. split; auto. split.
    - rewrite rel_emit. unfold rel. cbn [c_with_state c_with_st c_items c_head c_level c_state aq_q aq_state].
      repeat split; auto.
    - split; auto. }
  induction fuel; intros c a c' R NE H; cbn [c_advance] in H;
    (destruct (st_isBeyond A (c_st c) _); [destruct (1 <? c_level c) eqn:EL|]).
  - discriminate.
  - inversion H; subst c'. apply LAST; auto.
  - eauto.
  - pose proof (rel_level _ _ R) as HL.
    destruct (aq_q a) as [|x q] eqn:EQ; [congruence|]. cbn [length] in HL.
    match type of H with c_advance A M fuel ?d = _ => set (c2 := d) in * end.
    assert (Rs : rel (c_with_st c (mkST (st_time (c_st c)) (nsub K (st_time (c_st c)) (p_duration (mo_prof (c_getHead A c)))) (st_index (c_st c)) (st_width (c_st c)))) a) by exact R.
    destruct (rel_pop _ _ _ _ Rs EQ) as (P0 & P1 & P2 & P3 & P4).
    destruct (IHfuel c2 (mkAQ q (aq_done a ++ [x]) (aq_state a)) c') as (fin & a' & Q1 & Q2 & Q3 & Q4); auto.
    + unfold c2. rewrite rel_emit. unfold rel. cbn [aq_q aq_state]. repeat split; auto.
      * destruct R as (_ & _ & _ & _ & HS & _). exact HS.
      * intros _ ->. cbn in HL; lia.
    + cbn [aq_q]. intros ->. cbn in HL; lia.
    + cbn [aq_q aq_done aq_state] in *.
      exists (x :: fin), a'. cbn [length app]. rewrite Q1. split; auto. split. { rewrite Q2, <- app_assoc. reflexivity. }
      split; auto.
      assert (E2 : c_events c2 = c_events c ++ [motionCompleted]) by reflexivity.
      destruct (length (aq_q a') =? 0)%nat eqn:E0.
      * destruct Q4 as [Q4 Q5]. split; auto. rewrite Q4, E2, <- app_assoc. f_equal.
        assert (length fin <> 0)%nat. { apply (f_equal (@length _)) in Q1. rewrite app_length in Q1.
          destruct q; cbn [length] in *; lia. }
        destruct (length fin) as [|n]; [lia|]. cbn [Nat.sub]. rewrite Nat.sub_0_r. reflexivity.
      * destruct Q4 as [Q4 Q5]. split; auto. rewrite Q4, E2, <- app_assoc. reflexivity.
  - inversion H; subst c'. apply LAST; auto.
  - eauto.
Qed.

Lemma tick_rel_run c a c' st : rel c a -> c_state c = st -> st <> ms_stopped -> c_tick A M c = Ok c' ->
  exists (halt : bool) fin a',
        let es0 := if halt then [motionStopped] else [] in
        aq_q a = fin ++ aq_q a' /\ aq_done a' = aq_done a ++ fin /\ rel c' a' /\
        if (length (aq_q a') =? 0)%nat
        then fin <> [] /\
             c_events c' = c_events c ++ es0 ++ repeat motionCompleted (length fin - 1)
                    ++ [motionStopped; motionCompleted; allMotionsCompleted]
             /\ aq_state a' = ms_stopped
        else c_events c' = c_events c ++ es0 ++ repeat motionCompleted (length fin)
             /\ aq_state a' = (if halt then ms_stopped else st).
Proof.
  intros R HC NS H. unfold c_tick, c_isRunning in H. cbn [c_state c_with_sig] in H. rewrite HC in H.
  pose proof R as (R1 & R2 & R3 & R4 & HS & HN).
  assert (NE : aq_q a <> []) by (apply HN; congruence).
  set (d := c_with_st (c_with_sig c (sg_next (c_sig c))) (st_next A (c_st c))) in *.
  assert (H' : (let e := if st_isBeyond A (c_st d) (p_tStop (mo_prof (c_getHead A d)))
                then c_emit (c_with_state d ms_stopped) [motionStopped] else d in
                c_advance A M (N.to_nat (c_level e)) e) = Ok c').
  { destruct st; try congruence; exact H. }
  clear H. cbv zeta in H'.
  assert (X : forall fin q, aq_q a = fin ++ q -> (length q =? 0)%nat = true -> fin <> []).
  { intros fin q E L ->. apply NE. rewrite E. destruct q; [reflexivity|discriminate]. }
  destruct (st_isBeyond A (c_st d) (p_tStop (mo_prof (c_getHead A d)))).
  - set (e := c_emit (c_with_state d ms_stopped) [motionStopped]) in *.
    destruct (advance_rel (N.to_nat (c_level e)) e (mkAQ (aq_q a) (aq_done a) ms_stopped) c')
      as (fin & a' & Q1 & Q2 & Q3 & Q4); [|exact NE|exact H'|].
    { unfold rel. cbn [aq_q aq_state]. split; [exact R1|]. split; [exact R2|]. split; [exact R3|].
      split; [exact R4|]. split; [reflexivity|congruence]. }
    cbn [aq_q aq_done aq_state] in *. assert (EE : c_events e = c_events c ++ [motionStopped]) by reflexivity.
    exists true, fin, a'. split; [auto|]. split; [auto|]. split; [auto|].
    destruct (length (aq_q a') =? 0)%nat eqn:E0; destruct Q4 as [Q4 Q5]; rewrite Q4, EE, <- app_assoc.
    + split; [eapply X; eauto|]. split; auto.
    + split; auto.
  - destruct (advance_rel (N.to_nat (c_level d)) d a c') as (fin & a' & Q1 & Q2 & Q3 & Q4); [|exact NE|exact H'|].
    { exact R. }
    assert (EE : c_events d = c_events c) by reflexivity.
    exists false, fin, a'. split; [auto|]. split; [auto|]. split; [auto|].
    destruct (length (aq_q a') =? 0)%nat eqn:E0; destruct Q4 as [Q4 Q5]; rewrite Q4, EE.
    + split; [eapply X; eauto|]. split; auto.
    + split; [auto|congruence].
Qed.

Lemma tick_rel c a c' : rel c a -> c_tick A M c = Ok c' ->
  exists es a', aq_tick a es a' /\ rel c' a' /\ c_events c' = c_events c ++ es.
Proof.
  intros R H. pose proof R as (_ & _ & _ & _ & HS & _).
  destruct (c_state c) eqn:ES.
  3: { unfold c_tick, c_isRunning in H. cbn [c_state c_with_sig] in H. rewrite ES in H.
       inversion H; subst. exists [], a. unfold aq_tick. rewrite <- HS.
       split; [auto|]. split; [|now rewrite app_nil_r]. exact R. }
  all: destruct (tick_rel_run c a c' _ R ES ltac:(discriminate) H) as (h & fin & a' & Q1 & Q2 & Q3 & Q4).
  all: destruct (length (aq_q a') =? 0)%nat eqn:E0.
  all: try (destruct Q4 as (Q4 & Q5 & Q6); eexists _, a'; split; [|split; [exact Q3|exact Q5]];
            unfold aq_tick; rewrite <- HS; exists h, fin; rewrite E0; auto; fail).
  all: destruct Q4 as (Q5 & Q6); eexists _, a'; split; [|split; [exact Q3|exact Q5]];
            unfold aq_tick; rewrite <- HS; exists h, fin; rewrite E0; auto.
Qed.

Lemma calc_rel n : forall c a c' s, rel c a -> c_calc A M n c = Ok (Some (c', s)) ->
  exists es a', aq_ticks a es a' /\ rel c' a' /\ c_events c' = c_events c ++ es.
Proof.
  induction n; intros c a c' s R H; cbn [c_calc] in H; [discriminate|]. unfold rbind in H.
  destruct (c_tick A M c) as [c1|] eqn:E; [|discriminate].
  destruct (tick_rel _ _ _ R E) as (es & a1 & T & R1 & E1).
  destruct (_ || _).
  - inversion H; subst. exists es, a1. split; [now constructor|]. split; [exact R1|exact E1].
  - destruct (IHn _ _ _ _ R1 H) as (es2 & a2 & T2 & R2 & E2). exists (es ++ es2), a2.
    split; [eapply aqt_more; eauto|]. split; auto. now rewrite E2, E1, app_assoc.
Qed.

Lemma step_rel c a o c' s : rel c a -> (o = OStop -> c_level c <> 0) -> c_step A M c o = Ok (c', s) ->
  exists es a', aq_op a o es a' /\ rel c' a' /\ c_events c' = c_events c ++ es.
Proof.
  intros R G H. pose proof (rel_level _ _ R) as HL. destruct o; cbn [c_step] in H.
  - inversion H; subst. apply rel_append; auto.
  - inversion H; subst. cbn [aq_op]. unfold c_start, c_isEmpty. destruct (aq_q a) as [|x q] eqn:EQ; cbn [length] in HL.
    + replace (c_level c =? 0) with true by lia. cbn [negb]. exists [], a. rewrite app_nil_r. auto.
    + replace (c_level c =? 0) with false by lia. cbn [negb]. eexists _, _. split; [split; reflexivity|].
      split.
      * apply rel_optimize. destruct R as (R1 & R2 & R3 & R4 & R5 & R6).
        unfold rel. cbn [aq_q aq_state]. rewrite <- EQ. repeat split; auto. intros _; congruence.
      * match goal with |- context [c_optimize A M ?x] => destruct (optimize_keep A M x) as (_ & _ & -> & _) end. reflexivity.
  - inversion H; subst. cbn [aq_op]. unfold c_stop. eexists _, _. split; [split; reflexivity|].
    split.
    + apply rel_optimize. destruct R as (R1 & R2 & R3 & R4 & R5 & R6).
      unfold rel. cbn [aq_q aq_state]. repeat split; auto. intros _ EQ. apply G; auto. rewrite HL, EQ. reflexivity.
    + match goal with |- context [c_optimize A M ?x] => destruct (optimize_keep A M x) as (_ & _ & -> & _) end. reflexivity.
  - inversion H; subst. cbn [aq_op]. unfold c_flush, c_isRunning.
    pose proof R as (R1 & R2 & R3 & R4 & R5 & R6). rewrite R5.
    destruct (aq_state a) eqn:ES; cbn [negb].
    1,2: exists [], a; rewrite app_nil_r; auto.
    eexists [], _. split; [split; reflexivity|]. rewrite app_nil_r. split; [|reflexivity].
    unfold rel. cbn. repeat split; auto; try lia; try congruence.
  - inversion H; subst. exists [], a. cbn [aq_op]. rewrite app_nil_r. repeat split; apply R.
  - inversion H; subst. exists [], a. cbn [aq_op]. rewrite app_nil_r. repeat split; apply R.
  - unfold rbind in H. destruct (c_calc A M _ c) as [[[d t]|]|] eqn:E; try discriminate.
    inversion H; subst. cbn [aq_op]. eapply calc_rel; eauto.
Qed.

Lemma run_rel ops : forall c a c' recs, rel c a -> stops_guarded A M c ops -> c_run A M c ops = Ok (c', recs) ->
  exists es a', aq_run a ops es a' /\ rel c' a' /\ c_events c' = c_events c ++ es.
Proof.
  induction ops as [|o r IH]; intros c a c' recs R G H; cbn [c_run] in H.
  - inversion H; subst. exists [], a. rewrite app_nil_r. split; [constructor|auto].
  - destruct G as [G1 G2]. unfold rbind in H. destruct (c_step A M c o) as [[c1 s1]|] eqn:E; [|discriminate].
    destruct (c_run A M c1 r) as [[c2 s2]|] eqn:E2; [|discriminate]. inversion H; subst; clear H.
    destruct (step_rel c a o c1 s1) as (es1 & a1 & O1 & R1 & X1); auto. { intros ->; exact G1. }
    destruct (IH _ _ _ _ R1 G2 E2) as (es2 & a2 & O2 & R2 & X2).
    exists (es1 ++ es2), a2. split; [econstructor; eauto|]. split; auto. now rewrite X2, X1, app_assoc.
Qed.

Lemma rel_init m width : rel (c_init A m width) aq0.
Proof. unfold rel. cbn [c_init c_items c_head c_level c_state aq0 aq_q aq_state]. rewrite repeat_length. repeat split; try lia; try constructor. congruence. Qed.

Lemma queue_refines_lemma m width ops (c : ctrl F) recs :
  stops_guarded A M (c_init A m width) ops -> c_run A M (c_init A m width) ops = Ok (c, recs) ->
  exists a, aq_run aq0 ops (c_events c) a /\ Forall2 (holds A) (aq_q a) (queue A c) /\
    c_state c = aq_state a /\ (length (queue A c) <= 32)%nat /\
    (c_isRunning c = true -> queue A c <> []).
Proof.
  intros G H. destruct (run_rel ops _ aq0 c recs (rel_init m width) G H) as (es & a & R & Q & E).
  exists a. rewrite E. cbn [c_init c_events app]. split; auto.
  pose proof (rel_level _ _ Q) as HL. destruct Q as (Q1 & Q2 & Q3 & Q4 & Q5 & Q6).
  repeat split; auto.
  - unfold queue. rewrite contents_length. lia.
  - unfold c_isRunning. rewrite Q5. intros X Y. rewrite Y in Q4. inversion Q4. 
    destruct (aq_state a); try discriminate; apply Q6; auto; discriminate.
Qed.

Lemma aq_ticks_count (a : aq (D:=D)) es a' : aq_ticks a es a' ->
  length (aq_q a) = (count_event motionCompleted es + length (aq_q a'))%nat /\
  count_event motionBufferOverflow es = 0%nat.
Proof.
  assert (CA : forall e l1 l2, count_event e (l1 ++ l2) = (count_event e l1 + count_event e l2)%nat).
  { clear. intros. unfold count_event. now rewrite filter_app, app_length. }
  assert (CR : forall e x n, count_event e (repeat x n) = if event_eq_dec x e then n else 0%nat).
  { clear. intros. unfold count_event. induction n; cbn; destruct (event_eq_dec x e) eqn:E; auto. cbn. now rewrite IHn. }
  assert (T1 : forall (a : aq (D:=D)) es a', aq_tick a es a' -> length (aq_q a) = (count_event motionCompleted es + length (aq_q a'))%nat /\
  count_event motionBufferOverflow es = 0%nat).
  { intros b es0 b' T. unfold aq_tick in T. destruct (aq_state b).
    3: destruct T as [-> ->]; cbn; auto.
    all: destruct T as (h & fin & E1 & E2 & E3); rewrite E1, app_length.
    all: destruct (length (aq_q b') =? 0)%nat eqn:E0.
    all: try (destruct E3 as (NE & -> & _); destruct fin; [congruence|]).
    all: try destruct E3 as [-> _].
    all: rewrite !CA, !CR; destruct h; cbn; lia. }
  induction 1.
  - apply T1; auto.
  - destruct (T1 _ _ _ H) as [X1 X2]. destruct IHaq_ticks as [Y1 Y2]. rewrite !CA. lia.
Qed.

Lemma aq_run_count ops : forall (a : aq (D:=D)) es a', aq_run (F:=F) a ops es a' -> no_flush ops ->
  (length (aq_q a) + count_appends ops = count_event motionBufferOverflow es + count_event motionCompleted es + length (aq_q a'))%nat.
Proof.
  assert (CA : forall e l1 l2, count_event e (l1 ++ l2) = (count_event e l1 + count_event e l2)%nat).
  { clear. intros. unfold count_event. now rewrite filter_app, app_length. }
  induction 1 as [|a o es1 b r es2 c O R IH]; intro NF.
  - cbn. lia.
  - rewrite !CA. assert (NF' : no_flush r) by (intro; apply NF; right; auto). specialize (IH NF').
    unfold count_appends in *. cbn [filter].
    destruct o; cbn [aq_op] in O.
    + cbn [length]. destruct (length (aq_q a) <? 32)%nat; destruct O as [-> ->]; cbn [aq_q] in *; rewrite ?app_length in *; cbn in *; lia.
    + destruct (aq_q a) eqn:EQ; destruct O as [-> ->]; cbn [aq_q] in *; rewrite ?EQ in *; cbn in *; lia.
    + destruct O as [-> ->]; cbn in *; lia.
    + exfalso; apply NF; left; auto.
    + destruct O as [-> ->]; cbn in *; lia.
    + destruct O as [-> ->]; cbn in *; lia.
    + apply aq_ticks_count in O. lia.
Qed.

Lemma queue_counts_lemma m width ops (c : ctrl F) recs :
  stops_guarded A M (c_init A m width) ops -> no_flush ops -> c_run A M (c_init A m width) ops = Ok (c, recs) ->
  (count_appends ops = count_event motionBufferOverflow (c_events c) + count_event motionCompleted (c_events c)
     + length (queue A c))%nat.
Proof.
  intros G NF H. destruct (queue_refines_lemma _ _ _ _ _ G H) as (a & R & F2 & _).
  apply aq_run_count in R; auto. apply F2_length in F2. cbn [aq0 aq_q length] in R. lia.
Qed.

(** *** C25 *)
Lemma tick_stopped (c : ctrl F) : c_state c = ms_stopped -> c_tick A M c = Ok (c_with_sig c (sg_next (c_sig c))).
Proof. intro H. unfold c_tick, c_isRunning. cbn [c_state c_with_sig]. rewrite H. reflexivity. Qed.

Lemma calc_stopped n : forall (c : ctrl F) r, c_state c = ms_stopped -> c_calc A M n c = r ->
  match r with
  | Ok (Some (c', s)) => exists k, fst (fst (sg_run (c_sig c) (repeat [] k))) = c_sig c' /\
         snd (sg_run (c_sig c) (repeat [] k)) = [s] /\ c' = c_with_sig c (c_sig c')
  | UB => False
  | Ok None => True
  end.
Proof.
  induction n; intros c r H <-; cbn [c_calc]; auto. rewrite tick_stopped by auto. cbn [rbind].
  change (c_sig (c_with_sig c (sg_next (c_sig c)))) with (sg_next (c_sig c)).
  destruct (sg_isModified (sg_next (c_sig c)) || sg_isTimedOut (sg_next (c_sig c))) eqn:E.
  - destruct (sg_output (sg_next (c_sig c))) as [g s] eqn:EO. exists 1%nat. cbn [repeat sg_run]. unfold sg_tick. cbn [sg_cmds].
    rewrite E, EO. cbn. repeat split.
  - specialize (IHn (c_with_sig c (sg_next (c_sig c))) _ H eq_refl).
    destruct (c_calc A M n _) as [[[c' s]|]|]; auto. destruct IHn as (k & G & R & EC).
    exists (S k). cbn [repeat sg_run]. unfold sg_tick. cbn [sg_cmds]. rewrite E.
    change (c_sig (c_with_sig c (sg_next (c_sig c)))) with (sg_next (c_sig c)) in G, R.
    destruct (sg_run (sg_next (c_sig c)) (repeat [] k)) as [[g p] q]. cbn in G, R |- *. subst. repeat split; auto.
Qed.
End CtrlQ.
