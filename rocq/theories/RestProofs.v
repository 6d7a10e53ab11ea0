(** Every history leaves the queued motions meeting at rest (C87); a stopped controller is idle
    once the rest of its program is discarded (C88). *)
Require Import List Arith NArith ZArith Bool Lia ZifyBool ZifyNat ZifyN.
From Verif Require Import Base BaseProofs EventModel StepModel Num MotionModel CtrlModel CtrlSpec RestSpec CtrlProofs CtrlQueueProofs RingProofs.
Import ListNotations.

Section Rest.
Context {D F : Type} (A : arith D F) (M : machine F).
Local Notation K := (aF A).
Local Notation zero := (nofZ (aF A) 0).

(** *** Planning keeps the speeds at the ends. *)
Lemma calc_speeds (p : accdec F) o : ad_vStart (ad_calculate K p o) = ad_vStart p /\ ad_vEnd (ad_calculate K p o) = ad_vEnd p.
Proof.
  unfold ad_calculate. destruct o; [split; reflexivity|]. destruct (nltb K (ad_vStart p) (ad_vEnd p)).
  - destruct (nltb K (nsub K (ad_vEnd p) (ad_vStart p)) _); split; reflexivity.
  - destruct (nltb K _ _); split; reflexivity.
Qed.
Lemma ramps_speeds (p : profile F) v o : ad_vStart (p_left (p_ramps K p v o)) = ad_vStart (p_left p) /\ ad_vEnd (p_right (p_ramps K p v o)) = ad_vEnd (p_right p).
Proof.
  unfold p_ramps. cbn [p_left p_right].
  split; [rewrite (proj1 (calc_speeds _ o))|rewrite (proj2 (calc_speeds _ o))]; reflexivity.
Qed.
Lemma plan_speeds (p : profile F) len minS fo s :
  ad_vStart (p_left (p_optimize K p len minS fo s)) = ad_vStart (p_left p) /\ ad_vEnd (p_right (p_optimize K p len minS fo s)) = ad_vEnd (p_right p).
Proof.
  unfold p_optimize. destruct (p_plan K p len minS fo s) as [v o]. cbv zeta. cbn [p_left p_right].
  destruct (nltb K _ _); cbn [p_left p_right].
  - destruct (ramps_speeds (p_ramps K p v o) v firstOrder) as [-> ->]. apply ramps_speeds.
  - apply ramps_speeds.
Qed.
Lemma mo_speeds o fo s : entry_speed (mo_optimize A M o fo s) = entry_speed o /\ exit_speed (mo_optimize A M o fo s) = exit_speed o /\ mo_type (mo_optimize A M o fo s) = mo_type o.
Proof.
  unfold mo_optimize, entry_speed, exit_speed. destruct (is_move (mo_type o)); [|auto]. cbn [mo_prof mo_type].
  destruct (plan_speeds (mo_prof o) (t_length (mo_traj o)) (m_minS M) fo s) as [-> ->]. auto.
Qed.
Lemma mo_at_speeds o fo s t : exit_speed (mo_optimize_at A M o fo s t) = exit_speed o /\ mo_type (mo_optimize_at A M o fo s t) = mo_type o.
Proof.
  unfold mo_optimize_at. match goal with |- context [mo_optimize A M ?x fo s] => destruct (mo_speeds x fo s) as (_ & -> & ->) end.
  split; reflexivity.
Qed.
Lemma set_speeds o m fo s : is_move (mo_type (mo_set A M o m fo s)) = true ->
  entry_speed (mo_set A M o m fo s) = zero /\ exit_speed (mo_set A M o m fo s) = zero.
Proof.
  unfold mo_set. destruct (is_move (sm_type m)) eqn:E.
  - intros _. cbv zeta. unfold entry_speed, exit_speed. cbn [mo_prof].
    match goal with |- context [mo_optimize A M ?x fo s] => destruct (mo_speeds x fo s) as (H1 & H2 & _) end.
    unfold entry_speed, exit_speed in H1, H2. rewrite H1, H2. cbn [mo_prof]. unfold prof_setSpeed. destruct (limits A M _) as [[? ?] ?]. split; reflexivity.
  - destruct (is_pause (sm_type m)); cbn [mo_type]; congruence.
Qed.

(** *** The invariant, slot by slot. *)
Definition restful (k : nat) (o : motion F) : Prop :=
  is_move (mo_type o) = true -> exit_speed o = zero /\ (k <> 0%nat -> entry_speed o = zero).
Definition still (c : ctrl F) : Prop := forall k, (k < N.to_nat (c_level c))%nat -> restful k (at_slot A c k).
Lemma still_queue c : still c <-> meet_at_rest A c.
Proof.
  unfold still, meet_at_rest, restful, at_slot, slot, item, queue, contents. change mb_length with 32%N. split.
  - intros H k o HN. assert (Hk : (k < N.to_nat (c_level c))%nat).
    { assert (L : nth_error (map (fun i => rget (mo_zero A) (c_items c) ((c_head c + N.of_nat i) mod 32)) (seq 0 (N.to_nat (c_level c)))) k <> None) by congruence.
      apply nth_error_Some in L. rewrite map_length, seq_length in L. exact L. }
    specialize (H k Hk). rewrite nth_error_map in HN.
    rewrite (nth_error_nth' (seq 0 (N.to_nat (c_level c))) 0%nat), seq_nth in HN by (rewrite ?seq_length; lia).
    cbn in HN. injection HN as <-. exact H.
  - intros H k Hk. apply H. rewrite nth_error_map.
    rewrite (nth_error_nth' (seq 0 (N.to_nat (c_level c))) 0%nat), seq_nth by (rewrite ?seq_length; lia). reflexivity.
Qed.

Lemma pair_still (c : ctrl F) j : ringok c -> still c -> (S j < N.to_nat (c_level c))%nat ->
  let c' := c_optimizePair A M c (N.of_nat j) in ringok c' /\ still c' /\ c_level c' = c_level c.
Proof.
  intros WF ST Hj. cbv zeta.
  assert (L32 : (N.to_nat (c_level c) <= 32)%nat) by (destruct WF as (_ & _ & H); lia).
  unfold c_optimizePair. rewrite slot_eq by (auto; lia). replace (N.of_nat j + 1)%N with (N.of_nat (S j)) by lia. rewrite slot_eq by (auto; lia).
  change (item A c (slot c j)) with (at_slot A c j). set (oj := with_right_vEnd (at_slot A c j) zero).
  set (c1 := c_set_item c (slot c j) oj).
  assert (WF1 : ringok c1) by (apply ring_set; auto).
  assert (I1 : forall i, (i < 32)%nat -> at_slot A c1 i = if (i =? j)%nat then oj else at_slot A c i).
  { intros i Hi. unfold c1. rewrite slot_set by (auto; lia). reflexivity. }
  change (item A c1 (slot c j)) with (at_slot A c1 j). rewrite (I1 j), Nat.eqb_refl by lia.
  assert (ID : forall (d : ctrl F) i, c_head d = c_head c -> slot d i = slot c i) by (intros d i E; unfold slot; rewrite E; auto).
  set (c2 := if (N.of_nat j =? 0)%N then _ else _).
  assert (C2 : exists o1, c2 = c_set_item c1 (slot c1 j) o1 /\ restful j o1).
  { unfold c2. rewrite (ID c1 j) by reflexivity. specialize (ST j ltac:(lia)).
    destruct (N.eqb_spec (N.of_nat j) 0) as [E|E]; eexists; (split; [reflexivity|]); intro MV.
    - assert (j = 0%nat) by lia. split; [|lia].
      match goal with |- exit_speed (mo_optimize A M ?x _ _) = _ => destruct (mo_speeds x (c_fo c) (c_strategy c)) as (_ & -> & _) end.
      match goal with |- exit_speed (mo_optimize_at A M ?x _ _ ?t) = _ => destruct (mo_at_speeds x (c_fo c) (c_strategy c) t) as (-> & _) end. reflexivity.
    - destruct (mo_speeds oj (c_fo c) (c_strategy c)) as (E1 & E2 & E3). rewrite E3 in MV. rewrite E1, E2. split; [reflexivity|].
      intros _. apply ST; [exact MV|lia]. }
  destruct C2 as (o1 & E2 & R1). rewrite E2. clear c2 E2.
  set (c2 := c_set_item c1 (slot c1 j) o1). assert (WF2 : ringok c2) by (apply ring_set; auto).
  assert (I2 : forall i, (i < 32)%nat -> at_slot A c2 i = if (i =? j)%nat then o1 else at_slot A c i).
  { intros i Hi. unfold c2. rewrite slot_set by (auto; lia). destruct (Nat.eqb_spec i j); auto. rewrite I1 by auto. destruct (Nat.eqb_spec i j); [contradiction|auto]. }
  change (item A c2 (slot c (S j))) with (at_slot A c2 (S j)). rewrite (I2 (S j)) by lia.
  destruct (Nat.eqb_spec (S j) j) as [|_]; [lia|].
  set (c3 := c_set_item c2 (slot c (S j)) (with_left_vStart (at_slot A c (S j)) zero)). assert (WF3 : ringok c3) by (apply ring_set; auto).
  change (item A c3 (slot c (S j))) with (at_slot A c3 (S j)).
  assert (I3 : forall i, (i < 32)%nat -> at_slot A c3 i = if (i =? S j)%nat then with_left_vStart (at_slot A c (S j)) zero else if (i =? j)%nat then o1 else at_slot A c i).
  { intros i Hi. unfold c3. rewrite <- (ID c2 (S j)) by reflexivity. rewrite slot_set by (auto; lia). rewrite I2 by auto. reflexivity. }
  rewrite (I3 (S j)), Nat.eqb_refl by lia.
  match goal with |- context [mo_optimize A M ?x ?f ?s] => set (o2 := mo_optimize A M x f s); destruct (mo_speeds x f s) as (E1 & E2 & E3); fold o2 in E1, E2, E3 end.
  assert (R2 : restful (S j) o2).
  { intro MV. rewrite E3 in MV. rewrite E1, E2. split; [|reflexivity]. apply (ST (S j)); auto. }
  set (c4 := c_set_item c3 (slot c (S j)) o2). assert (WF4 : ringok c4) by (apply ring_set; auto).
  assert (I4 : forall i, (i < 32)%nat -> at_slot A c4 i = if (i =? S j)%nat then o2 else if (i =? j)%nat then o1 else at_slot A c i).
  { intros i Hi. unfold c4. rewrite <- (ID c3 (S j)) by reflexivity. rewrite slot_set by (auto; lia). rewrite I3 by auto. destruct (i =? S j)%nat; auto. }
  split; [exact WF4|]. split; [|reflexivity]. intros i Hi. change (c_level c4) with (c_level c) in Hi.
  rewrite I4 by lia. destruct (Nat.eqb_spec i (S j)) as [->|]; [exact R2|]. destruct (Nat.eqb_spec i j) as [->|]; [exact R1|]. apply ST; exact Hi.
Qed.
Lemma fold_still js : forall (c : ctrl F), ringok c -> still c -> (forall j, In j js -> (S j < N.to_nat (c_level c))%nat) ->
  ringok (fold_left (c_optimizePair A M) (map N.of_nat js) c) /\ still (fold_left (c_optimizePair A M) (map N.of_nat js) c).
Proof.
  induction js as [|j js IH]; intros c WF ST HJ; cbn [map fold_left]; [auto|].
  destruct (pair_still c j WF ST (HJ j (or_introl eq_refl))) as (W1 & S1 & L1).
  apply IH; auto. intros i Hi. rewrite L1. apply HJ. right; exact Hi.
Qed.
Lemma optimize_still (c : ctrl F) : ringok c -> still c -> ringok (c_optimize A M c) /\ still (c_optimize A M c).
Proof.
  intros WF ST. unfold c_optimize. destruct (N.eqb_spec (c_level c) 0); [auto|]. destruct (N.eqb_spec (c_level c) 1) as [E|].
  - assert (HI : c_head c = slot c 0). { unfold slot. rewrite N.add_0_r, N.mod_small; auto. apply WF. }
    unfold c_getHead. rewrite HI. change (item A c (slot c 0)) with (at_slot A c 0). split; [apply ring_set; auto|].
    intros k Hk. change (c_level (c_set_item c _ _)) with (c_level c) in Hk. assert (k = 0)%nat by lia. subst k.
    rewrite slot_set by (auto; lia). cbn [Nat.eqb]. intro MV.
    match goal with |- context [mo_optimize_at A M ?x ?f ?s ?t] => destruct (mo_at_speeds x f s t) as (E1 & E2) end.
    rewrite E2 in MV. rewrite E1. split; [|lia]. apply (ST 0%nat); [lia|exact MV].
  - unfold junctions. destruct (N.leb_spec 2147483648 (c_level c)); [cbn; auto|].
    destruct (c_strategy c); [rewrite <- map_rev|]; apply fold_still; auto; intros j Hj; [apply in_rev in Hj|]; apply in_seq in Hj; lia.
Qed.

(** Only the queue matters. *)
Lemma still_same (c d : ctrl F) : c_items d = c_items c -> c_head d = c_head c -> c_level d = c_level c -> still c -> still d.
Proof. intros E1 E2 E3 H k Hk. rewrite E3 in Hk. specialize (H k Hk). unfold at_slot, item, slot in *. rewrite E1, E2. exact H. Qed.
Lemma ring_same (c d : ctrl F) : c_items d = c_items c -> c_head d = c_head c -> c_level d = c_level c -> ringok c -> ringok d.
Proof. unfold ringok. intros -> -> ->. auto. Qed.
Lemma append_still (c : ctrl F) m : ringok c -> still c -> ringok (c_append A M c m) /\ still (c_append A M c m).
Proof.
  intros WF ST. destruct (N.ltb_spec (c_level c) 32) as [HL|HL].
  - destruct (ring_push A M c m WF HL) as (R1 & R2 & _ & _ & o & Q). split; auto.
    apply still_queue. intros k o' HN MV. rewrite Q in HN. apply still_queue in ST.
    destruct (Nat.lt_ge_cases k (length (queue A c))) as [Hk|Hk].
    + rewrite nth_error_app1 in HN by auto. exact (ST k o' HN MV).
    + rewrite nth_error_app2 in HN by auto. destruct (k - length (queue A c))%nat as [|n]; cbn in HN; [|destruct n; discriminate].
      injection HN as <-. destruct (set_speeds _ _ _ _ MV) as [-> ->]. auto.
  - unfold c_append, c_isFull, mb_length. destruct (N.leb_spec 32 (c_level c)); [|lia]. cbn [negb]. split; [exact WF|exact ST].
Qed.
Lemma pop_still (c : ctrl F) : ringok c -> (0 < c_level c)%N -> still c -> ringok (c_pop c) /\ still (c_pop c).
Proof.
  intros WF HL ST. destruct (ring_pop A c WF HL) as (Q & R & _). split; auto. apply still_queue. apply still_queue in ST.
  intros k o HN MV. destruct (ST (S k) o) as [H1 H2]; [rewrite Q; exact HN|exact MV|]. split; auto.
Qed.
Lemma moveAxis_frame o dist (c c' : ctrl F) i : c_moveAxis A M o dist c i = Ok c' ->
  c_items c' = c_items c /\ c_head c' = c_head c /\ c_level c' = c_level c /\ c_state c' = c_state c.
Proof.
  intro H. unfold c_moveAxis, c_trackAxis, c_decide in H. destruct (mo_isMoving A o i); [|inversion H; subst; auto].
  unfold rbind in H. destruct (needStepForward A M c i _) as [[|]|]; [| |discriminate].
  - apply stepAxis_ok in H. destruct H as (_ & _ & ->). auto.
  - destruct (needStepBackward A M c i _); [apply stepAxis_ok in H; destruct H as (_ & _ & ->); auto|inversion H; subst; auto].
Qed.
Lemma moves_frame o dist l : forall (c c' : ctrl F), c_moveAxes A M o dist c l = Ok c' ->
  c_items c' = c_items c /\ c_head c' = c_head c /\ c_level c' = c_level c /\ c_state c' = c_state c.
Proof.
  induction l as [|i l IH]; intros c c' H; cbn [c_moveAxes] in H; [inversion H; subst; auto|].
  unfold rbind in H. destruct (c_moveAxis A M o dist c i) as [c1|] eqn:E; [|discriminate].
  destruct (moveAxis_frame _ _ _ _ _ E) as (-> & -> & -> & ->) || (apply moveAxis_frame in E; destruct E as (E1 & E2 & E3 & E4); apply IH in H; destruct H as (H1 & H2 & H3 & H4); repeat split; congruence).
Qed.
Lemma advance_still fuel : forall (c c' : ctrl F), ringok c -> (0 < c_level c)%N -> still c -> c_advance A M fuel c = Ok c' ->
  ringok c' /\ still c' /\ (c_level c' = 0%N -> c_state c' = ms_stopped).
Proof.
  induction fuel; intros c c' WF HL ST H; cbn [c_advance] in H; (destruct (st_isBeyond A (c_st c) _); [destruct (N.ltb_spec 1 (c_level c))|]).
  1: discriminate.
  3: { match type of H with c_advance A M fuel ?d = _ => set (d0 := d) in * end.
    destruct (ring_pop A c WF HL) as (_ & _ & L). destruct (pop_still c WF HL ST) as [W1 S1].
    apply (IHfuel d0); auto.
    change (c_level d0) with (c_level (c_pop c)). lia. }
  1,3: destruct (pop_still c WF HL ST) as [W1 S1]; inversion H; subst c'; split; [exact W1|split; [exact S1|reflexivity]].
  all: unfold c_move in H; destruct (moves_frame _ _ _ _ _ H) as (E1 & E2 & E3 & E4); split; [eapply ring_same; eauto|]; split; [eapply still_same; eauto|lia].
Qed.
Definition calm (c : ctrl F) : Prop := ringok c /\ still c /\ (c_level c = 0%N -> c_state c = ms_stopped).
Lemma tick_calm (c c' : ctrl F) : calm c -> c_tick A M c = Ok c' -> calm c'.
Proof.
  intros (WF & ST & HS) H. unfold c_tick in H. cbv zeta in H.
  destruct (c_isRunning _) eqn:ER in H; [|inversion H; subst; split; [exact WF|split; [exact ST|exact HS]]].
  assert (HL : (0 < c_level c)%N). { destruct (N.eq_dec (c_level c) 0) as [E|]; [|lia]. unfold c_isRunning in ER. cbn [c_state c_with_sig] in ER. rewrite (HS E) in ER. discriminate. }
  destruct (st_isBeyond A _ (p_tStop _)) in H; eapply advance_still; try exact H; auto.
Qed.
Lemma calc_calm n : forall (c c' : ctrl F) s, calm c -> c_calc A M n c = Ok (Some (c', s)) -> calm c'.
Proof.
  induction n; intros c c' s C H; cbn [c_calc] in H; [discriminate|]. unfold rbind in H.
  destruct (c_tick A M c) as [c1|] eqn:E; [|discriminate]. apply tick_calm in E; auto.
  destruct (_ || _); [|eapply IHn; eauto]. destruct (sg_output (c_sig c1)) as [g s0]. inversion H; subst. exact E.
Qed.
Lemma run_calm ops : forall (c c' : ctrl F) recs, calm c -> stops_guarded A M c ops -> c_run A M c ops = Ok (c', recs) -> calm c'.
Proof.
  induction ops as [|o r IH]; intros c c' recs C G H; cbn [c_run] in H; [inversion H; subst; auto|].
  destruct G as [G1 G2]. unfold rbind in H. destruct (c_step A M c o) as [[c1 s1]|] eqn:E; [|discriminate].
  destruct (c_run A M c1 r) as [[c2 s2]|] eqn:E2; [|discriminate]. inversion H; subst; clear H.
  eapply IH; [|exact G2|exact E2]. clear IH G2 E2. pose proof C as (WF & ST & HS). destruct o; cbn [c_step] in E.
  1-6: inversion E; subst; clear E.
  - destruct (append_still c m WF ST) as [W1 S1]. split; auto. split; auto. intro L0.
    destruct (append_keep A M c m) as (_ & _ & _ & ->). apply HS.
    destruct (N.ltb_spec (c_level c) 32) as [HL|HL]; [destruct (ring_push A M c m WF HL) as (_ & L & _); lia|].
    unfold c_append, c_isFull, mb_length in L0. destruct (N.leb_spec 32 (c_level c)); [|lia]. cbn [negb] in L0. exact L0.
  - unfold c_start, c_isEmpty. destruct (N.eqb_spec (c_level c) 0); cbn [negb]; [exact C|].
    match goal with |- calm (c_optimize A M ?x) => destruct (optimize_still x WF ST) as [W1 S1]; destruct (optimize_keep A M x) as (_ & _ & _ & _ & _ & _ & L & _) end.
    split; auto. split; auto. rewrite L. intro L0. contradiction.
  - unfold c_stop.
    match goal with |- calm (c_optimize A M ?x) => destruct (optimize_still x WF ST) as [W1 S1]; destruct (optimize_keep A M x) as (_ & _ & _ & _ & _ & _ & L & _) end.
    split; auto. split; auto. rewrite L. intro L0. contradiction.
  - unfold c_flush. destruct (negb _) eqn:EN; [|exact C].
    destruct WF as (W1 & W2 & W3). split; [|split].
    + repeat split; cbn; auto; lia.
    + intros k Hk. cbn in Hk. lia.
    + intros _. cbn. unfold c_isRunning in EN. destruct (c_state c); try discriminate. reflexivity.
  - exact C.
  - exact C.
  - unfold rbind in E. destruct (c_calc A M _ c) as [[[d t]|]|] eqn:EC; try discriminate. inversion E; subst. eapply calc_calm; eauto.
Qed.
Lemma meet_at_rest_lemma m width ops (c : ctrl F) recs : stops_guarded A M (c_init A m width) ops -> c_run A M (c_init A m width) ops = Ok (c, recs) -> meet_at_rest A c.
Proof.
  intros G H. apply still_queue. eapply run_calm; [|exact G|exact H].
  split; [|split].
  - unfold ringok. cbn [c_init c_items c_head c_level]. rewrite repeat_length. repeat split; lia.
  - intros k Hk. cbn in Hk. lia.
  - reflexivity.
Qed.

(** *** What any history keeps: the number of slots and axes, and the length of the tick. *)
Definition sound (width : F) (c : ctrl F) : Prop :=
  length (c_items c) = 32%nat /\ st_width (c_st c) = width /\ length (c_pos c) = 3%nat.
Lemma optimize_sound w (c : ctrl F) : sound w c -> sound w (c_optimize A M c).
Proof.
  intros (H1 & H2 & H3). destruct (optimize_keep A M c) as (_ & E1 & _ & E2 & _). unfold sound. rewrite E1, E2.
  rewrite (keys_length _ _ (keys_optimize A M c)). auto.
Qed.
Lemma moveAxis_sound w o dist (c c' : ctrl F) i : sound w c -> c_moveAxis A M o dist c i = Ok c' -> sound w c'.
Proof.
  intros S0 H. unfold c_moveAxis, c_trackAxis, c_decide in H. destruct (mo_isMoving A o i); [|inversion H; subst; auto].
  unfold rbind in H. destruct (needStepForward A M c i _) as [[|]|]; [| |discriminate].
  - apply stepAxis_ok in H. destruct H as (_ & HP & HE). unfold sound in *. rewrite HP, upd_length, HE. exact S0.
  - destruct (needStepBackward A M c i _); [apply stepAxis_ok in H; destruct H as (_ & HP & HE)|inversion H; subst; auto].
    unfold sound in *. rewrite HP, upd_length, HE. exact S0.
Qed.
Lemma moves_sound w o dist l : forall (c c' : ctrl F), sound w c -> c_moveAxes A M o dist c l = Ok c' -> sound w c'.
Proof.
  induction l as [|i l IH]; intros c c' S0 H; cbn [c_moveAxes] in H; [inversion H; subst; auto|].
  unfold rbind in H. destruct (c_moveAxis A M o dist c i) as [c1|] eqn:E; [|discriminate].
  eapply IH; [|exact H]. eapply moveAxis_sound; eauto.
Qed.
Lemma advance_sound w fuel : forall (c c' : ctrl F), sound w c -> c_advance A M fuel c = Ok c' -> sound w c'.
Proof.
  induction fuel; intros c c' S0 H; cbn [c_advance] in H; (destruct (st_isBeyond A (c_st c) _); [destruct (1 <? c_level c)%N|]).
  1: discriminate.
  3: { eapply IHfuel; [|exact H]. exact S0. }
  1,3: inversion H; subst c'; exact S0.
  all: eapply moves_sound; [|exact H]; exact S0.
Qed.
Lemma tick_sound w (c c' : ctrl F) : sound w c -> c_tick A M c = Ok c' -> sound w c'.
Proof.
  intros S0 H. unfold c_tick in H. cbv zeta in H. destruct (c_isRunning _) in H; [|inversion H; subst; exact S0].
  eapply advance_sound; [|exact H]. destruct (st_isBeyond A _ (p_tStop _)); exact S0.
Qed.
Lemma calc_sound w n : forall (c c' : ctrl F) s, sound w c -> c_calc A M n c = Ok (Some (c', s)) -> sound w c'.
Proof.
  induction n; intros c c' s C H; cbn [c_calc] in H; [discriminate|]. unfold rbind in H.
  destruct (c_tick A M c) as [c1|] eqn:E; [|discriminate]. apply (tick_sound w) in E; auto.
  destruct (_ || _); [|eapply IHn; eauto]. destruct (sg_output (c_sig c1)) as [g s0]. inversion H; subst. exact E.
Qed.
Lemma run_sound w ops : forall (c c' : ctrl F) recs, sound w c -> c_run A M c ops = Ok (c', recs) -> sound w c'.
Proof.
  induction ops as [|o r IH]; intros c c' recs C H; cbn [c_run] in H; [inversion H; subst; auto|].
  unfold rbind in H. destruct (c_step A M c o) as [[c1 s1]|] eqn:E; [|discriminate].
  destruct (c_run A M c1 r) as [[c2 s2]|] eqn:E2; [|discriminate]. inversion H; subst; clear H.
  eapply IH; [|exact E2]. clear IH E2. destruct o; cbn [c_step] in E.
  1-6: inversion E; subst; clear E.
  - unfold c_append. destruct (negb _); [|exact C]. unfold c_push. cbv beta iota zeta. unfold sound in *. cbn [c_set_item c_with_items c_with_queue c_items c_st c_pos]. rewrite rset_length. exact C.
  - unfold c_start. destruct (negb _); [|exact C]. apply optimize_sound. exact C.
  - unfold c_stop. apply optimize_sound. exact C.
  - unfold c_flush. destruct (negb _); exact C.
  - unfold sound in *. cbn [c_resetPosition c_with_pos c_items c_st c_pos]. rewrite map_length. destruct C as (H1 & H2 & _). auto.
  - exact C.
  - unfold rbind in E. destruct (c_calc A M _ c) as [[[d t]|]|] eqn:EC; try discriminate. inversion E; subst. eapply calc_sound; eauto.
Qed.
Lemma init_sound m w : sound w (c_init A m w).
Proof. unfold sound. cbn [c_init c_items c_st c_pos st_width]. rewrite repeat_length. auto. Qed.
End Rest.
