(** Proofs about what the controller remembers. *)
Require Import List Arith NArith ZArith Bool Lia ZifyBool ZifyNat ZifyN.
From Verif Require Import Base BaseProofs EventModel StepModel Num MotionModel CtrlModel CtrlSpec CtrlProofs CtrlQueueProofs RingProofs RestProofs MemorySpec.
Import ListNotations.

(** *** Spindle and coolant: erasing the settings everywhere changes nothing. *)
Section Erase.
Context {D F : Type} (A : arith D F) (M : machine F).
Local Notation per0 := (mkPer true (nofZ (aF A) 0) false false).
Definition er (o : motion F) : motion F := mkMo (mo_type o) (mo_traj o) (mo_prof o) per0.
Definition erc (c : ctrl F) : ctrl F := c_with_items c (map er (c_items c)).
Definition err (r : res (ctrl F)) : res (ctrl F) := match r with Ok c => Ok (erc c) | UB => UB end.
Definition ers (r : res (ctrl F * list step)) : res (ctrl F * list step) := match r with Ok (c, s) => Ok (erc c, s) | UB => UB end.
Definition ero (r : res (option (ctrl F * step))) : res (option (ctrl F * step)) :=
  match r with Ok (Some (c, s)) => Ok (Some (erc c, s)) | Ok None => Ok None | UB => UB end.

Lemma er_zero : er (mo_zero A) = mo_zero A. Proof. reflexivity. Qed.
Lemma er_item c i : item A (erc c) i = er (item A c i).
Proof. unfold item, erc, rget. cbn [c_with_items c_items]. rewrite <- er_zero at 1. apply map_nth. Qed.
Lemma er_set c i o : c_set_item (erc c) i (er o) = erc (c_set_item c i o).
Proof. unfold c_set_item, erc, rset, c_with_items. cbn [c_state c_fo c_st c_items c_head c_level c_levelMax c_sig c_pos c_events]. f_equal. symmetry. apply map_upd. Qed.
Lemma er_opt o fo s : mo_optimize A M (er o) fo s = er (mo_optimize A M o fo s).
Proof. unfold mo_optimize. cbn [er mo_type mo_traj mo_prof]. destruct (is_move (mo_type o)); reflexivity. Qed.
Lemma er_opt_at o fo s t : mo_optimize_at A M (er o) fo s t = er (mo_optimize_at A M o fo s t).
Proof. unfold mo_optimize_at. rewrite <- er_opt. reflexivity. Qed.
Lemma er_vEnd o v : with_right_vEnd (er o) v = er (with_right_vEnd o v). Proof. reflexivity. Qed.
Lemma er_vStart o v : with_left_vStart (er o) v = er (with_left_vStart o v). Proof. reflexivity. Qed.
Lemma er_setm o m m' fo s : differ_in_spindle_or_coolant m m' -> er (mo_set A M (er o) m fo s) = er (mo_set A M o m' fo s).
Proof.
  intros [E1 E2 E3 E4 E5 E6 E7 E8 E9 E10 E11 E12 E13].
  assert (ET : traj_set A m = traj_set A m') by (unfold traj_set; rewrite E2, E3, E4, E5, E6, E7, E8, E9, E10, E11; reflexivity).
  unfold mo_set. rewrite E1, ET. destruct (is_move (sm_type m')).
  - cbv zeta. assert (EP : prof_setSpeed A M (mo_prof (er o)) (traj_set A m') m = prof_setSpeed A M (mo_prof o) (traj_set A m') m').
    { unfold prof_setSpeed. rewrite E12. reflexivity. }
    rewrite EP. unfold mo_optimize. cbn [mo_type mo_traj mo_prof mo_per er]. destruct (is_move (sm_type m')); reflexivity.
  - destruct (is_pause (sm_type m')); [|reflexivity]. unfold er. cbn [mo_type mo_traj mo_prof]. f_equal. unfold prof_setDuration. rewrite E13. reflexivity.
Qed.

Lemma er_pair c j : c_optimizePair A M (erc c) j = erc (c_optimizePair A M c j).
Proof.
  unfold c_optimizePair. cbv zeta. rewrite er_item, er_vEnd, er_set.
  set (c1 := c_set_item c _ (with_right_vEnd _ _)).
  change (st_time (c_st (erc c1))) with (st_time (c_st c1)).
  change (c_head (erc c)) with (c_head c). change (c_fo (erc c)) with (c_fo c). change (c_strategy (erc c)) with (c_strategy c).
  rewrite er_item, er_opt_at, !er_opt, !er_set.
  set (c2a := c_set_item c1 _ _). set (c2b := c_set_item c1 _ _).
  replace (if (j =? 0)%N then erc c2a else erc c2b) with (erc (if (j =? 0)%N then c2a else c2b)) by (destruct (j =? 0)%N; reflexivity).
  set (c2 := if (j =? 0)%N then c2a else c2b).
  rewrite er_item, er_vStart, er_set. set (c3 := c_set_item c2 _ _).
  rewrite er_item, er_opt, er_set. reflexivity.
Qed.
Lemma er_optimize c : c_optimize A M (erc c) = erc (c_optimize A M c).
Proof.
  unfold c_optimize. change (c_level (erc c)) with (c_level c). destruct (c_level c =? 0)%N; [reflexivity|].
  destruct (c_level c =? 1)%N.
  - unfold c_getHead. change (c_head (erc c)) with (c_head c). rewrite er_item, er_opt_at, er_set. reflexivity.
  - change (junctions (erc c)) with (junctions c). generalize (junctions c) as l. intro l. revert c.
    induction l as [|j l IH]; intro c; cbn [fold_left]; [reflexivity|]. rewrite er_pair. apply IH.
Qed.
Lemma er_er o : er (er o) = er o. Proof. reflexivity. Qed.
Lemma erc_set_er c i o : erc (c_set_item c i (er o)) = erc (c_set_item c i o).
Proof. rewrite <- !er_set. reflexivity. Qed.
Lemma erc_erc c : erc (erc c) = erc c.
Proof. unfold erc, c_with_items. cbn [c_state c_fo c_st c_items c_head c_level c_levelMax c_sig c_pos c_events]. rewrite map_map. reflexivity. Qed.
Lemma er_append c m m' : differ_in_spindle_or_coolant m m' -> erc (c_append A M (erc c) m) = erc (c_append A M c m').
Proof.
  intro H. unfold c_append. change (c_isFull (erc c)) with (c_isFull c). destruct (negb (c_isFull c)); cycle 1.
  - unfold c_emit. apply (erc_erc (c_emit c [motionBufferOverflow])).
  - unfold c_push. cbv beta iota zeta. change (c_head (erc c)) with (c_head c). change (c_level (erc c)) with (c_level c). change (c_levelMax (erc c)) with (c_levelMax c).
    set (c1 := c_with_queue c _ _ _). change (c_with_queue (erc c) _ _ _) with (erc c1). set (w := (_ mod mb_length)%N).
    rewrite er_item. change (c_fo (erc c1)) with (c_fo c1). change (c_strategy (erc c1)) with (c_strategy c1).
    rewrite <- erc_set_er, (er_setm _ m m') by auto. rewrite er_set. rewrite erc_erc. reflexivity.
Qed.
Lemma er_stepAxis c i d : c_stepAxis (erc c) i d = err (c_stepAxis c i d).
Proof. unfold c_stepAxis. cbv zeta. change (c_pos (erc c)) with (c_pos c). destruct (int32_ok _); reflexivity. Qed.
Lemma er_moveAxis o dist c i : c_moveAxis A M (er o) dist (erc c) i = err (c_moveAxis A M o dist c i).
Proof.
  unfold c_moveAxis. change (mo_isMoving A (er o) i) with (mo_isMoving A o i). destruct (mo_isMoving A o i); [|reflexivity].
  change (mo_position A (er o) i dist) with (mo_position A o i dist). unfold c_trackAxis.
  change (c_decide A M (erc c) i (mo_position A o i dist)) with (c_decide A M c i (mo_position A o i dist)).
  destruct (c_decide A M c i _) as [[d|]|]; cbn [rbind]; [apply er_stepAxis|reflexivity|reflexivity].
Qed.
Lemma er_moveAxes o dist l : forall c, c_moveAxes A M (er o) dist (erc c) l = err (c_moveAxes A M o dist c l).
Proof.
  induction l as [|i l IH]; intro c; cbn [c_moveAxes]; [reflexivity|]. rewrite er_moveAxis.
  destruct (c_moveAxis A M o dist c i) as [c1|]; cbn [err rbind]; [apply IH|reflexivity].
Qed.
Lemma er_head c : c_getHead A (erc c) = er (c_getHead A c). Proof. apply er_item. Qed.
Lemma er_advance fuel : forall c, c_advance A M fuel (erc c) = err (c_advance A M fuel c).
Proof.
  induction fuel as [|f IH]; intro c; cbn [c_advance]; rewrite er_head; cbn [er mo_prof];
    change (c_st (erc c)) with (c_st c); change (c_level (erc c)) with (c_level c);
    (destruct (st_isBeyond A (c_st c) _); [destruct (1 <? c_level c)%N|]).
  1: reflexivity. 1: reflexivity. 2: { cbv zeta. rewrite <- IH. reflexivity. } 2: reflexivity.
  all: unfold c_move; rewrite er_head; apply er_moveAxes.
Qed.
Lemma er_tick c : c_tick A M (erc c) = err (c_tick A M c).
Proof.
  unfold c_tick. cbv zeta. set (d := c_with_sig c (sg_next (c_sig c))). change (c_with_sig (erc c) _) with (erc d).
  change (c_isRunning (erc d)) with (c_isRunning d). destruct (c_isRunning d); [|reflexivity].
  set (e := c_with_st d (st_next A (c_st d))). change (c_with_st (erc d) _) with (erc e). rewrite er_head. cbn [er mo_prof].
  change (c_st (erc e)) with (c_st e). destruct (st_isBeyond A (c_st e) _).
  - change (c_emit (c_with_state (erc e) ms_stopped) [motionStopped]) with (erc (c_emit (c_with_state e ms_stopped) [motionStopped])). apply er_advance.
  - apply er_advance.
Qed.
Lemma er_calc n : forall c, c_calc A M n (erc c) = ero (c_calc A M n c).
Proof.
  induction n; intro c; cbn [c_calc]; [reflexivity|]. rewrite er_tick. destruct (c_tick A M c) as [c1|]; cbn [err rbind]; [|reflexivity].
  change (c_sig (erc c1)) with (c_sig c1). destruct (_ || _); [|apply IHn]. destruct (sg_output (c_sig c1)); reflexivity.
Qed.
Lemma er_step c o o' : same_but_settings o o' -> ers (c_step A M (erc c) o) = ers (c_step A M c o').
Proof.
  intros [m m' H|o1]; [cbn [c_step ers]; rewrite (er_append c m m') by auto; reflexivity|].
  destruct o1; cbn [c_step ers].
  - rewrite (er_append c m m); [reflexivity|split; reflexivity].
  - unfold c_start. change (c_isEmpty (erc c)) with (c_isEmpty c). destruct (negb (c_isEmpty c)); [|rewrite erc_erc; reflexivity].
    change (c_with_state (c_emit (erc c) [motionStarted]) ms_running) with (erc (c_with_state (c_emit c [motionStarted]) ms_running)).
    rewrite er_optimize, erc_erc. reflexivity.
  - unfold c_stop. change (c_with_state (c_emit (erc c) [stopRequested]) ms_stopping) with (erc (c_with_state (c_emit c [stopRequested]) ms_stopping)).
    rewrite er_optimize, erc_erc. reflexivity.
  - unfold c_flush. change (c_isRunning (erc c)) with (c_isRunning c). destruct (negb (c_isRunning c)); [|rewrite erc_erc; reflexivity].
    change (c_flushBuffer (c_with_st (erc c) (st_initialize A (c_st (erc c))))) with (erc (c_flushBuffer (c_with_st c (st_initialize A (c_st c))))).
    rewrite erc_erc. reflexivity.
  - change (c_resetPosition (erc c)) with (erc (c_resetPosition c)). rewrite erc_erc. reflexivity.
  - do 2 f_equal. exact (erc_erc (mkC (c_state c) fo (c_st c) (c_items c) (c_head c) (c_level c) (c_levelMax c) (c_sig c) (c_pos c) (c_events c))).
  - rewrite er_calc. change (c_sig (erc c)) with (c_sig c). destruct (c_calc A M _ c) as [[[d s]|]|]; cbn [ero rbind ers]; [rewrite erc_erc|..]; reflexivity.
Qed.
Lemma er_run ops ops' : Forall2 same_but_settings ops ops' -> forall c c', erc c = erc c' -> ers (c_run A M c ops) = ers (c_run A M c' ops').
Proof.
  induction 1 as [|o o' r r' H HF IH]; intros c c' E; cbn [c_run]; [cbn [ers]; rewrite E; reflexivity|].
  assert (Z : ers (c_step A M c o) = ers (c_step A M c' o')).
  { rewrite <- (er_step c o o (sb_same o)), E. apply er_step. exact H. }
  destruct (c_step A M c o) as [[d s]|], (c_step A M c' o') as [[d' s']|]; cbn [ers rbind] in *; try discriminate; [|reflexivity].
  injection Z as Z1 Z2 Z3. subst s'.
  assert (Y : erc d = erc d') by exact Z1 || (unfold erc, c_with_items in *; congruence).
  specialize (IH d d' Y). destruct (c_run A M d r) as [[e t]|], (c_run A M d' r') as [[e' t']|]; cbn [ers rbind] in *; try discriminate; [|reflexivity].
  injection IH. intros. subst. reflexivity || congruence.
Qed.
Lemma no_effect m w ops ops' : Forall2 same_but_settings ops ops' ->
  visible (c_run A M (c_init A m w) ops) = visible (c_run A M (c_init A m w) ops').
Proof.
  intro H. pose proof (er_run ops ops' H (c_init A m w) (c_init A m w) eq_refl) as E.
  destruct (c_run A M _ ops) as [[e t]|], (c_run A M _ ops') as [[e' t']|]; cbn [ers visible] in *; try discriminate; [|reflexivity].
  assert (Y : erc e = erc e' /\ t = t') by (injection E; intros; split; auto; unfold erc, c_with_items; congruence).
  destruct Y as [Y ->]. change (c_pos e) with (c_pos (erc e)). change (c_events e) with (c_events (erc e)). change (c_state e) with (c_state (erc e)).
  change (c_level e) with (c_level (erc e)). change (c_sig e) with (c_sig (erc e)). rewrite Y. reflexivity.
Qed.
End Erase.

(** *** The slots of the queue keep nothing that matters once a moving motion is stored. *)
Section Slots.
Context {D F : Type} (A : arith D F) (M : machine F).
Local Notation K := (aF A).

Lemma calculate_same (p q : accdec F) o : ad_vStart p = ad_vStart q -> ad_vEnd p = ad_vEnd q -> ad_aMax p = ad_aMax q ->
  ad_dMax p = ad_dMax q -> ad_jMax p = ad_jMax q -> ad_calculate K p o = ad_calculate K q o.
Proof. intros E1 E2 E3 E4 E5. unfold ad_calculate. rewrite E1, E2, E3, E4, E5. reflexivity. Qed.

(** Two profiles that agree on what planning reads. *)
Record plan_like (p q : profile F) : Prop := {
  pl_len : p_doneLength p = p_doneLength q; pl_dur : p_doneDuration p = p_doneDuration q;
  pl_vs : ad_vStart (p_left p) = ad_vStart (p_left q); pl_ve : ad_vEnd (p_right p) = ad_vEnd (p_right q);
  pl_feed : p_vFeed p = p_vFeed q; pl_v : p_vMax p = p_vMax q; pl_a : p_aMax p = p_aMax q; pl_d : p_dMax p = p_dMax q;
  pl_j : p_jMax p = p_jMax q }.
Lemma ramps_left (p q : profile F) v o : plan_like p q -> p_left (p_ramps K p v o) = p_left (p_ramps K q v o).
Proof. intros []. unfold p_ramps. cbn [p_left]. apply calculate_same; cbn; assumption || reflexivity. Qed.
Lemma ramps_right (p q : profile F) v o : plan_like p q -> p_right (p_ramps K p v o) = p_right (p_ramps K q v o).
Proof. intros []. unfold p_ramps. cbn [p_right]. apply calculate_same; cbn; assumption || reflexivity. Qed.
Lemma ramps_like (p q : profile F) v o : plan_like p q -> plan_like (p_ramps K p v o) (p_ramps K q v o).
Proof.
  intro H. pose proof (ramps_left p q v o H) as L. pose proof (ramps_right p q v o H) as R. destruct H.
  constructor; [..|rewrite L; reflexivity|rewrite R; reflexivity| | | | |]; cbn [p_ramps p_doneLength p_doneDuration p_vFeed p_vMax p_aMax p_dMax p_jMax]; assumption.
Qed.
Lemma optimize_same (p q : profile F) len mn fo s : plan_like p q -> p_optimize K p len mn fo s = p_optimize K q len mn fo s.
Proof.
  intro H. unfold p_optimize.
  assert (EP : p_plan K p len mn fo s = p_plan K q len mn fo s).
  { destruct H. unfold p_plan, p_vTri. rewrite pl_len0, pl_vs0, pl_ve0, pl_feed0, pl_v0, pl_a0, pl_d0. reflexivity. }
  rewrite EP. destruct (p_plan K q len mn fo s) as [v o]. cbv zeta.
  assert (Z : forall a b : profile F, plan_like a b -> p_left a = p_left b -> p_right a = p_right b ->
    mkP (p_doneLength a) (p_doneDuration a) (p_left a)
      (mkCR v (nsub K (nsub K len (p_doneLength a)) (nadd K (ad_length (p_left a)) (ad_length (p_right a))))
         (ndiv K (nsub K (nsub K len (p_doneLength a)) (nadd K (ad_length (p_left a)) (ad_length (p_right a)))) v)) (p_right a)
      (p_vFeed a) (p_vMax a) (p_aMax a) (p_dMax a) (p_jMax a)
      (nadd K (nadd K (nadd K (p_doneDuration a) (ad_duration (p_left a)))
         (ndiv K (nsub K (nsub K len (p_doneLength a)) (nadd K (ad_length (p_left a)) (ad_length (p_right a)))) v)) (ad_duration (p_right a)))
      (if neqb K v (nofZ K 0) then nadd K (p_doneDuration a) (ad_duration (p_left a)) else ninf K) =
    mkP (p_doneLength b) (p_doneDuration b) (p_left b)
      (mkCR v (nsub K (nsub K len (p_doneLength b)) (nadd K (ad_length (p_left b)) (ad_length (p_right b))))
         (ndiv K (nsub K (nsub K len (p_doneLength b)) (nadd K (ad_length (p_left b)) (ad_length (p_right b)))) v)) (p_right b)
      (p_vFeed b) (p_vMax b) (p_aMax b) (p_dMax b) (p_jMax b)
      (nadd K (nadd K (nadd K (p_doneDuration b) (ad_duration (p_left b)))
         (ndiv K (nsub K (nsub K len (p_doneLength b)) (nadd K (ad_length (p_left b)) (ad_length (p_right b)))) v)) (ad_duration (p_right b)))
      (if neqb K v (nofZ K 0) then nadd K (p_doneDuration b) (ad_duration (p_left b)) else ninf K)).
  { intros a b [] EL ER. rewrite EL, ER, pl_len0, pl_dur0, pl_feed0, pl_v0, pl_a0, pl_d0, pl_j0. reflexivity. }
  pose proof (ramps_like p q v o H) as H1. pose proof (ramps_left p q v o H) as L1. pose proof (ramps_right p q v o H) as R1.
  rewrite L1, R1, (pl_len _ _ H1). destruct (nltb K (nsub K len _) _).
  - apply Z; [apply ramps_like, H1|apply ramps_left, H1|apply ramps_right, H1].
  - apply Z; assumption.
Qed.
Lemma set_same o o' m fo s : is_move (sm_type m) = true -> mo_set A M o m fo s = mo_set A M o' m fo s.
Proof.
  intro MV. unfold mo_set. rewrite MV. cbv zeta. unfold mo_optimize. cbn [mo_type]. rewrite MV. cbn [mo_type mo_traj mo_prof]. f_equal.
  apply optimize_same. unfold prof_setSpeed. destruct (limits A M (traj_set A m)) as [[v a] d]. split; reflexivity.
Qed.

(** Two controllers that agree on all but the position of the queue in the ring and the empty slots. *)
Record like (c d : ctrl F) : Prop := {
  li_c : ringok c; li_d : ringok d;
  li_state : c_state c = c_state d; li_fo : c_fo c = c_fo d; li_st : c_st c = c_st d; li_level : c_level c = c_level d;
  li_max : c_levelMax c = c_levelMax d; li_sig : c_sig c = c_sig d; li_pos : c_pos c = c_pos d; li_events : c_events c = c_events d;
  li_slots : forall k, (k < N.to_nat (c_level c))%nat -> at_slot A c k = at_slot A d k }.
(** What follows the signals, the position, the clock and the events. *)
Lemma like_upd c d st fo' t g p e : like c d ->
  like (mkC st fo' t (c_items c) (c_head c) (c_level c) (c_levelMax c) g p e) (mkC st fo' t (c_items d) (c_head d) (c_level d) (c_levelMax d) g p e).
Proof. intros []. split; cbn; auto. Qed.
Lemma like_set c d j o : like c d -> (j < N.to_nat (c_level c))%nat -> like (c_set_item c (slot c j) o) (c_set_item d (slot d j) o).
Proof.
  intros L Hj. destruct L. assert (N.to_nat (c_level c) <= 32)%nat by (destruct li_c0; lia).
  split; try assumption; try (apply ring_set; assumption).
  intros k Hk. change (c_level (c_set_item c (slot c j) o)) with (c_level c) in Hk.
  rewrite !slot_set by (assumption || lia). destruct (k =? j)%nat; auto.
Qed.
Lemma like_pair c d j : like c d -> (S j < N.to_nat (c_level c))%nat -> like (c_optimizePair A M c (N.of_nat j)) (c_optimizePair A M d (N.of_nat j)).
Proof.
  intros L Hj. assert (N.to_nat (c_level c) <= 32)%nat by (destruct L as [(_ & _ & H) _ _ _ _ _ _ _ _ _ _]; lia).
  assert (SE : forall (x : ctrl F), ringok x -> (forall k, (k <= 32)%nat -> (add32 (c_head x) (N.of_nat k) mod mb_length)%N = slot x k)) by (intros; apply slot_eq; auto).
  pose proof (li_c _ _ L) as RC. pose proof (li_d _ _ L) as RD.
  unfold c_optimizePair. cbv zeta. replace (N.of_nat j + 1)%N with (N.of_nat (S j)) by lia.
  rewrite !(SE c RC), !(SE d RD) by lia. rewrite <- (li_fo _ _ L).
  replace (c_strategy d) with (c_strategy c) by (unfold c_strategy; rewrite (li_state _ _ L); reflexivity).
  change (item A c (slot c j)) with (at_slot A c j). change (item A d (slot d j)) with (at_slot A d j). rewrite <- (li_slots _ _ L j) by lia.
  set (o1 := with_right_vEnd _ _). pose proof (like_set c d j o1 L ltac:(lia)) as L1.
  set (c1 := c_set_item c (slot c j) o1) in *. set (d1 := c_set_item d (slot d j) o1) in *.
  change (slot c j) with (slot c1 j). change (slot d j) with (slot d1 j).
  change (item A c1 (slot c1 j)) with (at_slot A c1 j). change (item A d1 (slot d1 j)) with (at_slot A d1 j). rewrite <- (li_slots _ _ L1 j), <- (li_st _ _ L1) by (cbn; lia).
  set (o2a := mo_optimize A M (mo_optimize_at A M _ _ _ _) _ _). set (o2b := mo_optimize A M (at_slot A c1 j) _ _).
  assert (L2 : like (if (N.of_nat j =? 0)%N then c_set_item c1 (slot c1 j) o2a else c_set_item c1 (slot c1 j) o2b) (if (N.of_nat j =? 0)%N then c_set_item d1 (slot d1 j) o2a else c_set_item d1 (slot d1 j) o2b)).
  { destruct (N.of_nat j =? 0)%N; apply like_set; auto; cbn; lia. }
  assert (HC : slot c (S j) = slot (if (N.of_nat j =? 0)%N then c_set_item c1 (slot c1 j) o2a else c_set_item c1 (slot c1 j) o2b) (S j)) by (destruct (N.of_nat j =? 0)%N; reflexivity).
  assert (HD : slot d (S j) = slot (if (N.of_nat j =? 0)%N then c_set_item d1 (slot d1 j) o2a else c_set_item d1 (slot d1 j) o2b) (S j)) by (destruct (N.of_nat j =? 0)%N; reflexivity).
  assert (HL : c_level (if (N.of_nat j =? 0)%N then c_set_item c1 (slot c1 j) o2a else c_set_item c1 (slot c1 j) o2b) = c_level c) by (destruct (N.of_nat j =? 0)%N; reflexivity).
  set (c2 := if (N.of_nat j =? 0)%N then c_set_item c1 _ _ else _) in *. set (d2 := if (N.of_nat j =? 0)%N then c_set_item d1 _ _ else _) in *.
  rewrite HC, HD. clearbody c2 d2. clear HC HD.
  change (item A c2 (slot c2 (S j))) with (at_slot A c2 (S j)). change (item A d2 (slot d2 (S j))) with (at_slot A d2 (S j)). rewrite <- (li_slots _ _ L2 (S j)) by lia.
  set (o3 := with_left_vStart _ _). pose proof (like_set c2 d2 (S j) o3 L2 ltac:(lia)) as L3.
  set (c3 := c_set_item c2 (slot c2 (S j)) o3) in *. set (d3 := c_set_item d2 (slot d2 (S j)) o3) in *.
  change (slot c2 (S j)) with (slot c3 (S j)). change (slot d2 (S j)) with (slot d3 (S j)).
  change (item A c3 (slot c3 (S j))) with (at_slot A c3 (S j)). change (item A d3 (slot d3 (S j))) with (at_slot A d3 (S j)).
  assert (HL3 : c_level c3 = c_level c) by (rewrite <- HL; reflexivity).
  rewrite <- (li_slots _ _ L3 (S j)) by lia. apply like_set; auto. lia.
Qed.
Lemma like_fold js : forall c d, like c d -> (forall j, In j js -> (S j < N.to_nat (c_level c))%nat) ->
  like (fold_left (c_optimizePair A M) (map N.of_nat js) c) (fold_left (c_optimizePair A M) (map N.of_nat js) d).
Proof.
  induction js as [|j js IH]; intros c d L H; cbn [map fold_left]; [exact L|]. apply IH.
  - apply like_pair; auto. apply H. left; reflexivity.
  - intros k Hk. replace (c_level (c_optimizePair A M c (N.of_nat j))) with (c_level c); [apply H; right; exact Hk|].
    unfold c_optimizePair. destruct (N.of_nat j =? 0)%N; reflexivity.
Qed.
Lemma head_slot (c : ctrl F) : ringok c -> c_head c = slot c 0.
Proof. intro R. unfold slot. rewrite N.add_0_r, N.mod_small; auto. apply R. Qed.
Lemma like_head c d : like c d -> (0 < c_level c)%N -> c_getHead A c = c_getHead A d.
Proof. intros L H. unfold c_getHead. rewrite (head_slot c (li_c _ _ L)), (head_slot d (li_d _ _ L)). apply (li_slots _ _ L 0%nat). lia. Qed.
Lemma like_optimize c d : like c d -> like (c_optimize A M c) (c_optimize A M d).
Proof.
  intro L. unfold c_optimize. rewrite <- (li_level _ _ L). destruct (N.eqb_spec (c_level c) 0); [exact L|]. destruct (N.eqb_spec (c_level c) 1).
  - rewrite <- (like_head c d L), <- (li_fo _ _ L), <- (li_st _ _ L) by lia. replace (c_strategy d) with (c_strategy c) by (unfold c_strategy; rewrite (li_state _ _ L); reflexivity).
    rewrite (head_slot c (li_c _ _ L)), (head_slot d (li_d _ _ L)). apply like_set; auto. lia.
  - assert (EJ : junctions d = junctions c) by (unfold junctions, c_strategy; rewrite (li_level _ _ L), (li_state _ _ L); reflexivity).
    rewrite EJ. unfold junctions. destruct (N.leb_spec 2147483648 (c_level c)); [exact L|].
    destruct (c_strategy c); [rewrite <- map_rev|]; apply like_fold; auto; intros j Hj; [apply in_rev in Hj|]; apply in_seq in Hj; lia.
Qed.
Lemma like_append c d m : like c d -> is_move (sm_type m) = true -> like (c_append A M c m) (c_append A M d m).
Proof.
  intros L MV. unfold c_append, c_isFull. rewrite <- (li_level _ _ L). destruct (N.leb_spec mb_length (c_level c)) as [|HL]; cbn [negb].
  - unfold c_emit. rewrite (li_state _ _ L), (li_fo _ _ L), (li_st _ _ L), (li_sig _ _ L), (li_pos _ _ L), (li_events _ _ L). apply like_upd, L.
  - unfold mb_length in HL. unfold c_push. cbv beta iota zeta. rewrite <- (li_level _ _ L), <- (li_max _ _ L).
    set (l := add32 (c_level c) 1). set (mx := N.max _ _).
    assert (EL : l = (c_level c + 1)%N) by (unfold l, add32; apply w32_small; unfold two32; lia).
    set (c1 := c_with_queue c (c_head c) l mx). set (d1 := c_with_queue d (c_head d) l mx).
    rewrite (set_same _ (mo_zero A) m (c_fo c1) _ MV), (set_same _ (mo_zero A) m (c_fo d1) _ MV).
    change (c_fo c1) with (c_fo c). change (c_fo d1) with (c_fo d). rewrite <- (li_fo _ _ L).
    replace (c_strategy d1) with (c_strategy c1) by (unfold c_strategy; cbn; rewrite (li_state _ _ L); reflexivity).
    set (o := mo_set A M _ _ _ _). set (n := N.to_nat (c_level c)).
    assert (R1 : ringok c1) by (destruct (li_c _ _ L) as (? & ? & ?); repeat split; cbn; auto; lia).
    assert (R2 : ringok d1) by (destruct (li_d _ _ L) as (? & ? & ?); repeat split; cbn; auto; lia).
    replace (add32 (c_head c) (c_level c) mod mb_length)%N with (slot c1 n) by (rewrite <- (slot_eq c1 n R1) by lia; cbn [c1 c_with_queue c_head]; unfold n; rewrite N2Nat.id; reflexivity).
    replace (add32 (c_head d) (c_level c) mod mb_length)%N with (slot d1 n) by (rewrite <- (slot_eq d1 n R2) by lia; cbn [d1 c_with_queue c_head]; unfold n; rewrite N2Nat.id; reflexivity).
    destruct L. split; try assumption; try reflexivity; try (apply ring_set; assumption).
    intros k Hk. change (c_level (c_set_item c1 (slot c1 n) o)) with l in Hk. rewrite !slot_set by (assumption || lia).
    destruct (Nat.eqb_spec k n); [reflexivity|]. apply li_slots0. lia.
Qed.
Lemma like_pop c d : like c d -> (0 < c_level c)%N -> like (c_pop c) (c_pop d).
Proof.
  intros L HL. destruct (ring_pop A c (li_c _ _ L) HL) as (_ & R1 & E1). destruct (ring_pop A d (li_d _ _ L)) as (_ & R2 & E2); [rewrite <- (li_level _ _ L); exact HL|].
  assert (SL : forall x : ctrl F, ringok x -> forall k, (k < 31)%nat -> at_slot A (c_pop x) k = at_slot A x (S k)).
  { intros x (X1 & X2 & X3) k Hk. unfold at_slot, slot, item. cbn [c_pop c_with_queue c_items c_head]. f_equal.
    unfold add32, mb_length. rewrite w32_small by (unfold two32; lia). rewrite N.add_mod_idemp_l by lia. f_equal. lia. }
  pose proof L as [C1 C2 C3 C4 C5 C6 C7 C8 C9 C10 C11]. split; try assumption.
  - rewrite E1, E2, C6. reflexivity.
  - intros k Hk. rewrite E1 in Hk. destruct C1 as (? & ? & ?). rewrite !SL by (assumption || lia || (repeat split; assumption)). apply C11. lia.
Qed.

(** Both undefined, or both defined with related results. *)
Definition both {X} (R : X -> X -> Prop) (r s : res X) : Prop :=
  match r, s with Ok x, Ok y => R x y | UB, UB => True | _, _ => False end.
Lemma like_moveAxis o dist c d i : like c d -> both like (c_moveAxis A M o dist c i) (c_moveAxis A M o dist d i).
Proof.
  intro L. unfold c_moveAxis. destruct (mo_isMoving A o i); [|exact L]. unfold c_trackAxis.
  assert (ED : c_decide A M d i (mo_position A o i dist) = c_decide A M c i (mo_position A o i dist)) by (unfold c_decide, needStepForward, needStepBackward; rewrite (li_pos _ _ L); reflexivity).
  rewrite ED. destruct (c_decide A M c i _) as [[x|]|]; cbn [rbind]; [|exact L|exact I].
  unfold c_stepAxis. cbv zeta. rewrite <- (li_pos _ _ L), <- (li_sig _ _ L). destruct (int32_ok _); [|exact I]. cbn [both].
  unfold c_with_pos, c_with_sig. cbn [c_state c_fo c_st c_items c_head c_level c_levelMax c_sig c_pos c_events].
  rewrite (li_state _ _ L), (li_fo _ _ L), (li_st _ _ L), (li_events _ _ L). apply like_upd, L.
Qed.
Lemma like_moveAxes o dist l : forall c d, like c d -> both like (c_moveAxes A M o dist c l) (c_moveAxes A M o dist d l).
Proof.
  induction l as [|i l IH]; intros c d L; cbn [c_moveAxes]; [exact L|]. pose proof (like_moveAxis o dist c d i L) as H.
  destruct (c_moveAxis A M o dist c i), (c_moveAxis A M o dist d i); cbn [both rbind] in *; try contradiction; auto.
Qed.
Lemma like_advance fuel : forall c d, like c d -> (0 < c_level c)%N -> both like (c_advance A M fuel c) (c_advance A M fuel d).
Proof.
  induction fuel as [|f IH]; intros c d L HL; cbn [c_advance]; rewrite <- (like_head c d L HL), <- (li_st _ _ L), <- (li_level _ _ L);
    (destruct (st_isBeyond A (c_st c) _); [destruct (N.ltb_spec 1 (c_level c))|]).
  1: exact I.
  3: { cbv zeta. apply IH; [|cbn [c_emit c_with_st c_pop c_with_queue c_level]; destruct (ring_pop A c (li_c _ _ L) HL) as (_ & _ & E); cbn in E; rewrite E; lia].
    pose proof (like_pop c d L HL) as P. unfold c_emit, c_with_st, c_pop, c_with_queue in *. cbn [c_state c_fo c_st c_items c_head c_level c_levelMax c_sig c_pos c_events] in *.
    rewrite (li_state _ _ L), (li_fo _ _ L), (li_sig _ _ L), (li_pos _ _ L), (li_events _ _ L).
    rewrite (li_level _ _ L), (li_max _ _ L) in P |- *. exact (like_upd _ _ _ _ _ _ _ _ P). }
  1,3: cbn [both]; pose proof (like_pop c d L HL) as P; unfold c_emit, c_with_st, c_with_state, c_pop, c_with_queue in *; cbn [c_state c_fo c_st c_items c_head c_level c_levelMax c_sig c_pos c_events] in *;
    rewrite (li_st _ _ L), (li_fo _ _ L), (li_sig _ _ L), (li_pos _ _ L), (li_events _ _ L);
    rewrite (li_level _ _ L), (li_max _ _ L) in P |- *; exact (like_upd _ _ _ _ _ _ _ _ P).
  all: unfold c_move; rewrite <- (like_head c d L HL), <- (li_st _ _ L); apply like_moveAxes, L.
Qed.
Lemma like_tick c d : calm A c -> like c d -> both (fun x y => like x y /\ calm A x) (c_tick A M c) (c_tick A M d).
Proof.
  intros CA L. assert (H : both like (c_tick A M c) (c_tick A M d)).
  { unfold c_tick. cbv zeta.
    assert (L1 : like (c_with_sig c (sg_next (c_sig c))) (c_with_sig d (sg_next (c_sig d)))).
    { unfold c_with_sig. rewrite (li_state _ _ L), (li_fo _ _ L), (li_st _ _ L), (li_sig _ _ L), (li_pos _ _ L), (li_events _ _ L). apply like_upd, L. }
    set (c1 := c_with_sig c _) in *. set (d1 := c_with_sig d _) in *.
    assert (ER : c_isRunning d1 = c_isRunning c1) by (unfold c_isRunning; rewrite (li_state _ _ L1); reflexivity). rewrite ER.
    destruct (c_isRunning c1) eqn:ERC; [|exact L1].
    assert (HL : (0 < c_level c)%N).
    { destruct CA as (_ & _ & HS). destruct (N.eq_dec (c_level c) 0) as [E|]; [|lia]. unfold c_isRunning in ERC. cbn [c1 c_state c_with_sig] in ERC. rewrite (HS E) in ERC. discriminate. }
    assert (L2 : like (c_with_st c1 (st_next A (c_st c1))) (c_with_st d1 (st_next A (c_st d1)))).
    { unfold c_with_st. rewrite (li_state _ _ L1), (li_fo _ _ L1), (li_st _ _ L1), (li_sig _ _ L1), (li_pos _ _ L1), (li_events _ _ L1). apply like_upd, L1. }
    set (c2 := c_with_st c1 _) in *. set (d2 := c_with_st d1 _) in *.
    rewrite <- (like_head c2 d2 L2 HL), <- (li_st _ _ L2). destruct (st_isBeyond A (c_st c2) _).
    - assert (L3 : like (c_emit (c_with_state c2 ms_stopped) [motionStopped]) (c_emit (c_with_state d2 ms_stopped) [motionStopped])).
      { unfold c_emit, c_with_state. cbn [c_state c_fo c_st c_items c_head c_level c_levelMax c_sig c_pos c_events].
        rewrite (li_fo _ _ L2), (li_st _ _ L2), (li_sig _ _ L2), (li_pos _ _ L2), (li_events _ _ L2). apply like_upd, L2. }
      rewrite <- (li_level _ _ L3). apply like_advance; [exact L3|exact HL].
    - rewrite <- (li_level _ _ L2). apply like_advance; [exact L2|exact HL]. }
  destruct (c_tick A M c) as [x|] eqn:E, (c_tick A M d) as [y|]; cbn [both] in *; try contradiction; auto. split; auto. eapply tick_calm; eauto.
Qed.
Definition liker (r s : option (ctrl F * step)) : Prop :=
  match r, s with Some (c, x), Some (d, y) => like c d /\ calm A c /\ x = y | None, None => True | _, _ => False end.
Lemma like_calc n : forall c d, calm A c -> like c d -> both liker (c_calc A M n c) (c_calc A M n d).
Proof.
  induction n; intros c d CA L; cbn [c_calc]; [exact I|]. pose proof (like_tick c d CA L) as H.
  destruct (c_tick A M c) as [x|], (c_tick A M d) as [y|]; cbn [both rbind] in *; try contradiction; auto. destruct H as [H C1].
  rewrite <- (li_sig _ _ H). destruct (_ || _); [|apply IHn; assumption]. destruct (sg_output (c_sig x)) as [g s]. cbn [both liker].
  split; [|split; [exact C1|reflexivity]]. unfold c_with_sig. rewrite (li_state _ _ H), (li_fo _ _ H), (li_st _ _ H), (li_pos _ _ H), (li_events _ _ H). apply like_upd, H.
Qed.
Definition likes (r s : ctrl F * list step) : Prop := like (fst r) (fst s) /\ snd r = snd s.
Lemma like_step c d o : calm A c -> like c d -> (forall m, o = OAppend m -> is_move (sm_type m) = true) ->
  both likes (c_step A M c o) (c_step A M d o).
Proof.
  intros CA L MV. destruct o; cbn [c_step both]; try (split; [|reflexivity]; cbn [fst]).
  - apply like_append; auto.
  - unfold c_start, c_isEmpty. rewrite <- (li_level _ _ L). destruct (negb _); [|exact L]. apply like_optimize.
    unfold c_with_state, c_emit. cbn [c_state c_fo c_st c_items c_head c_level c_levelMax c_sig c_pos c_events].
    rewrite (li_fo _ _ L), (li_st _ _ L), (li_sig _ _ L), (li_pos _ _ L), (li_events _ _ L). apply like_upd, L.
  - unfold c_stop. apply like_optimize. unfold c_with_state, c_emit. cbn [c_state c_fo c_st c_items c_head c_level c_levelMax c_sig c_pos c_events].
    rewrite (li_fo _ _ L), (li_st _ _ L), (li_sig _ _ L), (li_pos _ _ L), (li_events _ _ L). apply like_upd, L.
  - unfold c_flush. replace (c_isRunning d) with (c_isRunning c) by (unfold c_isRunning; rewrite (li_state _ _ L); reflexivity).
    destruct (negb (c_isRunning c)); [|exact L]. destruct L as [(A1 & A2 & A3) (B1 & B2 & B3) C1 C2 C3 C4 C5 C6 C7 C8 C9].
    split; cbn; auto; try (repeat split; cbn; auto; lia); try lia. rewrite C3. reflexivity.
  - unfold c_resetPosition, c_with_pos. rewrite (li_state _ _ L), (li_fo _ _ L), (li_st _ _ L), (li_sig _ _ L), (li_events _ _ L). apply like_upd, L.
  - rewrite (li_state _ _ L), (li_st _ _ L), (li_sig _ _ L), (li_pos _ _ L), (li_events _ _ L). apply like_upd, L.
  - rewrite <- (li_sig _ _ L). pose proof (like_calc (N.to_nat (N.max 1 (sg_maxTicks (c_sig c)))) c d CA L) as H.
    destruct (c_calc A M _ c) as [[[x s]|]|], (c_calc A M _ d) as [[[y t]|]|]; cbn [both rbind liker] in *; try contradiction; auto.
    destruct H as (H1 & _ & ->). split; [exact H1|reflexivity].
Qed.
Lemma like_run ops : forall c d, calm A c -> like c d -> appends_moves ops -> stops_guarded A M c ops ->
  both likes (c_run A M c ops) (c_run A M d ops).
Proof.
  induction ops as [|o r IH]; intros c d CA L MV G; cbn [c_run]; [split; [exact L|reflexivity]|].
  destruct G as [G1 G2].
  assert (H : both likes (c_step A M c o) (c_step A M d o)) by (apply like_step; auto; intros m ->; apply MV; left; reflexivity).
  destruct (c_step A M c o) as [[x s]|] eqn:E, (c_step A M d o) as [[y t]|]; cbn [both rbind] in *; try contradiction; auto.
  destruct H as [H1 H2]. cbn [fst snd] in *. subst t.
  assert (C1 : calm A x).
  { apply (run_calm A M [o] c x s CA).
    - cbn [stops_guarded]. split; [exact G1|]. rewrite E. exact I.
    - cbn [c_run]. rewrite E. cbn [rbind]. rewrite app_nil_r. reflexivity. }
  specialize (IH x y C1 H1 (fun m Hm => MV m (or_intror Hm)) G2).
  destruct (c_run A M x r) as [[x2 s2]|], (c_run A M y r) as [[y2 t2]|]; cbn [both rbind] in *; try contradiction; auto.
  destruct IH as [I1 I2]. cbn [fst snd] in *. subst t2. split; [exact I1|reflexivity].
Qed.

(** An empty queue means that the clock is back at its beginning. *)
Definition reset_clock (c : ctrl F) : Prop := c_level c = 0%N -> c_st c = st_initialize A (c_st c).
Lemma advance_clock fuel : forall c c', ringok c -> (0 < c_level c)%N -> c_advance A M fuel c = Ok c' -> reset_clock c'.
Proof.
  induction fuel; intros c c' R HL H; cbn [c_advance] in H; (destruct (st_isBeyond A (c_st c) _); [destruct (N.ltb_spec 1 (c_level c))|]).
  1: discriminate.
  3: { match type of H with c_advance A M fuel ?d = _ => apply (IHfuel d); auto end; destruct (ring_pop A c R HL) as (_ & R1 & E); [exact R1|].
    cbn [c_emit c_with_st c_pop c_with_queue c_level] in *. rewrite E. lia. }
  1,3: inversion H; subst c'; intros _; reflexivity.
  all: unfold c_move in H; destruct (moves_frame _ _ _ _ _ _ _ H) as (_ & _ & E3 & _); intro Z; lia.
Qed.
Lemma tick_clock c c' : calm A c -> reset_clock c -> c_tick A M c = Ok c' -> reset_clock c'.
Proof.
  intros (R & ST & HS) RC H. unfold c_tick in H. cbv zeta in H.
  destruct (c_isRunning _) eqn:ER in H; [|inversion H; subst; exact RC].
  assert (HL : (0 < c_level c)%N). { destruct (N.eq_dec (c_level c) 0) as [E|]; [|lia]. unfold c_isRunning in ER. cbn [c_state c_with_sig] in ER. rewrite (HS E) in ER. discriminate. }
  destruct (st_isBeyond A _ (p_tStop _)) in H; eapply advance_clock; try exact H; auto.
Qed.
Lemma calc_clock n : forall c c' s, calm A c -> reset_clock c -> c_calc A M n c = Ok (Some (c', s)) -> reset_clock c'.
Proof.
  induction n; intros c c' s C RC H; cbn [c_calc] in H; [discriminate|]. unfold rbind in H.
  destruct (c_tick A M c) as [c1|] eqn:E; [|discriminate]. pose proof (tick_calm A M _ _ C E) as C1. apply tick_clock in E; auto.
  destruct (_ || _); [|eapply IHn; eauto]. destruct (sg_output (c_sig c1)) as [g s0]. inversion H; subst. exact E.
Qed.
Lemma step_clock c o c' s : calm A c -> reset_clock c -> c_step A M c o = Ok (c', s) -> reset_clock c'.
Proof.
  intros CA RC E. pose proof CA as (R & _ & _). destruct o; cbn [c_step] in E.
  1-6: inversion E; subst; clear E.
  - destruct (append_keep A M c m) as (_ & _ & ES & _). unfold reset_clock. rewrite ES. intro Z. apply RC.
    destruct (N.ltb_spec (c_level c) 32) as [HL|HL]; [destruct (ring_push A M c m R HL) as (_ & L & _); lia|].
    unfold c_append, c_isFull, mb_length in Z. destruct (N.leb_spec 32 (c_level c)); [|lia]. cbn [negb] in Z. exact Z.
  - unfold c_start. destruct (negb _); [|exact RC]. unfold reset_clock.
    match goal with |- context [c_optimize A M ?x] => destruct (optimize_keep A M x) as (_ & _ & _ & ES & _ & _ & L & _) end. rewrite ES, L. exact RC.
  - unfold c_stop, reset_clock.
    match goal with |- context [c_optimize A M ?x] => destruct (optimize_keep A M x) as (_ & _ & _ & ES & _ & _ & L & _) end. rewrite ES, L. exact RC.
  - unfold c_flush. destruct (negb _); [|exact RC]. intros _. reflexivity.
  - exact RC.
  - exact RC.
  - unfold rbind in E. destruct (c_calc A M _ c) as [[[d t]|]|] eqn:EC; try discriminate. inversion E; subst. eapply calc_clock; eauto.
Qed.
Lemma run_clock ops : forall c c' recs, calm A c -> reset_clock c -> stops_guarded A M c ops -> c_run A M c ops = Ok (c', recs) -> reset_clock c'.
Proof.
  induction ops as [|o r IH]; intros c c' recs CA RC G H; cbn [c_run] in H; [inversion H; subst; auto|].
  destruct G as [G1 G2]. unfold rbind in H. destruct (c_step A M c o) as [[c1 s1]|] eqn:E; [|discriminate].
  destruct (c_run A M c1 r) as [[c2 s2]|] eqn:E2; [|discriminate]. inversion H; subst; clear H.
  assert (C1 : calm A c1).
  { apply (run_calm A M [o] c c1 s1 CA).
    - cbn [stops_guarded]. split; [exact G1|]. rewrite E. exact I.
    - cbn [c_run]. rewrite E. cbn [rbind]. rewrite app_nil_r. reflexivity. }
  exact (IH c1 c' s2 C1 (step_clock c o c1 s1 CA RC E) G2 E2).
Qed.
Lemma calm_init m w : calm A (c_init A m w).
Proof.
  split; [|split].
  - unfold ringok. cbn [c_init c_items c_head c_level]. rewrite repeat_length. repeat split; lia.
  - intros k Hk. cbn in Hk. lia.
  - reflexivity.
Qed.
Lemma no_trace m w ops c recs ops' : stops_guarded A M (c_init A m w) ops -> c_run A M (c_init A m w) ops = Ok (c, recs) -> c_level c = 0%N ->
  appends_moves ops' -> stops_guarded A M c ops' -> visible (c_run A M c ops') = visible (c_run A M (renewed A c) ops').
Proof.
  intros G H L0 MV G'. pose proof (run_calm A M ops _ _ _ (calm_init m w) G H) as CA.
  assert (RC : reset_clock c) by (eapply (run_clock ops (c_init A m w)); eauto; [apply calm_init|intros _; reflexivity]).
  assert (L : like c (renewed A c)).
  { pose proof CA as (R & _ & HS). split; try reflexivity.
    - exact R.
    - unfold ringok, renewed. cbn [c_items c_head c_level]. rewrite repeat_length. repeat split; lia.
    - rewrite (HS L0). reflexivity.
    - rewrite (RC L0). reflexivity.
    - exact L0.
    - intros k Hk. lia. }
  pose proof (like_run ops' c (renewed A c) CA L MV G') as B.
  destruct (c_run A M c ops') as [[x s]|], (c_run A M (renewed A c) ops') as [[y t]|]; cbn [both visible] in *; try contradiction; [|reflexivity].
  destruct B as [[] E]. cbn [fst snd] in *. congruence.
Qed.
End Slots.
Lemma carried {D F} (A : arith D F) (M : machine F) m w ops (c : ctrl F) recs :
  stops_guarded A M (c_init A m w) ops -> c_run A M (c_init A m w) ops = Ok (c, recs) ->
  exists a, aq_run aq0 ops (c_events c) a /\ map mo_per (queue A c) = map (programmed A) (aq_q a).
Proof.
  intros G H. destruct (queue_refines_lemma A M m w ops c recs G H) as (a & R & Q & _). exists a. split; auto.
  induction Q as [|x o q l HO Q IH]; cbn [map]; [reflexivity|]. destruct HO as (_ & HP & _). f_equal; [exact HP|exact IH].
Qed.
