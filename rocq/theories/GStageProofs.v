(** Proofs about gcode.cpp, continued: the later stages of parseBlock and the
    possible outcomes of a block as a whole. *)
Require Import List Arith NArith ZArith Bool Lia ZifyBool ZifyNat ZifyN Permutation.
From Verif Require Import Base Num MotionModel GcodeModel GcodeSpec GBlockProofs GParseProofs GHeadProofs.
Import ListNotations.
Open Scope N_scope.

Section P.
Context {D : Type} (K : num D) (pi : D).
Local Notation word := (@word D).
Local Notation block := (@block D).
Local Notation gstate := (@gstate D).
Local Notation gcode := (@gcode D).
Local Notation zero := (nofZ K 0).

Lemma two_of_unique (P : word -> Prop) ws w w' : ~ two_of P ws -> In w ws -> In w' ws -> P w -> P w' -> w = w'.
Proof.
  intros N I I' Pw Pw'. destruct (in_split _ _ I) as (a & b & ->). apply in_app_or in I'. destruct I' as [I'|[I'|I']]; [|exact I'|].
  - destruct (in_split _ _ I') as (x & y & ->). exfalso. apply N. exists x, w', y, w, b. rewrite <- app_assoc. auto.
  - destruct (in_split _ _ I') as (x & y & ->). exfalso. apply N. exists a, w, x, w', y. auto.
Qed.

Lemma value_unique (ws : list word) l g x y : ~ letter_collision ws -> In (l, g) value_letters ->
  has_value ws l x -> has_value ws l y -> x = y.
Proof.
  intros N I (w & Iw & E & <-) (w' & Iw' & E' & <-). f_equal.
  apply (two_of_unique (fun w => w_letter w = l) ws); auto. intros T. apply N. exists l, g. auto.
Qed.

Lemma group_unique (ws : list word) g l n l' n' : ~ group_collision ws -> In (l, n) (group_words g) -> In (l', n') (group_words g) ->
  has ws l n -> has ws l' n' -> l = l' /\ n = n'.
Proof.
  intros N I I' (w & Iw & <- & <-) (w' & Iw' & <- & <-).
  assert (w = w') by (apply (two_of_unique (in_group g) ws); auto; intros T; apply N; exists g; auto). now subst.
Qed.

(** *** plane, unit, coordinate system, distance mode *)
Definition r_modes : N -> N -> bool :=
  ror (keys plane_words) (ror (keys unit_words) (ror (keys coord_words) (keys dist_words))).

Record modes_ok (c c' : gcode) : Prop := {
  o_keeps : keeps r_modes c c';
  o_motion : s_motion (g_st c') = s_motion (g_st c);
  o_feed : s_feed (g_st c') = s_feed (g_st c);
  o_spindle : s_spindle (g_st c') = s_spindle (g_st c);
  o_over : s_over (g_st c') = s_over (g_st c);
  o_flood : s_flood (g_st c') = s_flood (g_st c);
  o_mist : s_mist (g_st c') = s_mist (g_st c);
  o_letters : s_letters (g_st c') = s_letters (g_st c);
  o_cur : s_cur (g_st c') = s_cur (g_st c);
  o_next : s_next (g_st c') = s_next (g_st c);
  o_wcs : s_wcs (g_st c') = s_wcs (g_st c);
  o_plane : follows plane_words (W c) (s_plane (g_st c)) (s_plane (g_st c'));
  o_unit : follows unit_words (W c) (s_unit (g_st c)) (s_unit (g_st c'));
  o_coord : follows coord_words (W c) (s_coord (g_st c)) (s_coord (g_st c'));
  o_dist : follows dist_words (W c) (s_dist (g_st c)) (s_dist (g_st c')) }.

Lemma modes_lemma c : modes_ok c (parse_modes c).
Proof.
  set (c1 := setArcPlane c). set (c2 := setUnitsMode c1). set (c3 := setWCSMode c2). set (c4 := setdistanceMode c3).
  assert (E : g_block (parse_modes c) = g_block c4 /\ g_st (parse_modes c) = g_st c4).
  { unfold parse_modes. fold c1 c2 c3 c4. destruct (search2 (g_block c4) cG 100); [|auto].
    destruct (search2 (g_block c4) cL 20), (search2 (g_block c4) cL 200), (search1 (g_block c4) cP); auto. }
  destruct E as [EB ES].
  pose proof (proj1 (first_of_spec c (tab st_plane plane_words))) as k1.
  change (first_of c (tab st_plane plane_words)) with c1 in k1.
  pose proof (proj1 (first_of_spec c1 (tab st_unit unit_words))) as k2.
  change (first_of c1 (tab st_unit unit_words)) with c2 in k2.
  pose proof (proj1 (first_of_spec c2 (tab st_coord coord_words))) as k3.
  change (first_of c2 (tab st_coord coord_words)) with c3 in k3.
  pose proof (proj1 (first_of_spec c3 (tab st_dist dist_words))) as k4.
  change (first_of c3 (tab st_dist dist_words)) with c4 in k4.
  pose proof (keeps_trans _ _ _ _ _ k1 k2) as K2.
  pose proof (keeps_trans _ _ _ _ _ K2 k3) as K3.
  pose proof (keeps_trans _ _ _ _ _ K3 k4) as K4.
  assert (S1 : forall V (pr : gstate -> V), (forall v s, pr (st_plane v s) = pr s) -> pr (g_st c1) = pr (g_st c)).
  { intros V pr H. apply first_of_same. intros l n f s I. cbn [In] in I. repeat (destruct I as [I|I]; [inversion I; subst; apply H|]). destruct I. }
  assert (S2 : forall V (pr : gstate -> V), (forall v s, pr (st_unit v s) = pr s) -> pr (g_st c2) = pr (g_st c1)).
  { intros V pr H. apply first_of_same. intros l n f s I. cbn [In] in I. repeat (destruct I as [I|I]; [inversion I; subst; apply H|]). destruct I. }
  assert (S3 : forall V (pr : gstate -> V), (forall v s, pr (st_coord v s) = pr s) -> pr (g_st c3) = pr (g_st c2)).
  { intros V pr H. apply first_of_same. intros l n f s I. cbn [In] in I. repeat (destruct I as [I|I]; [inversion I; subst; apply H|]). destruct I. }
  assert (S4 : forall V (pr : gstate -> V), (forall v s, pr (st_dist v s) = pr s) -> pr (g_st c4) = pr (g_st c3)).
  { intros V pr H. apply first_of_same. intros l n f s I. cbn [In] in I. repeat (destruct I as [I|I]; [inversion I; subst; apply H|]). destruct I. }
  constructor; rewrite ?ES.
  - eapply (keeps_weak (ror (ror (ror _ _) _) _)).
    2:{ destruct K4 as (A & B & C). unfold keeps, W. rewrite EB. split; [exact A|]. split; [|exact C]. exact B. }
    intros l n E. unfold ror in *. rewrite ?tab_keys in E. unfold r_modes, ror. rewrite !orb_true_iff in *. tauto.
  - rewrite S4, S3, S2, S1; reflexivity.
  - rewrite S4, S3, S2, S1; reflexivity.
  - rewrite S4, S3, S2, S1; reflexivity.
  - rewrite S4, S3, S2, S1; reflexivity.
  - rewrite S4, S3, S2, S1; reflexivity.
  - rewrite S4, S3, S2, S1; reflexivity.
  - rewrite S4, S3, S2, S1; reflexivity.
  - rewrite S4, S3, S2, S1; reflexivity.
  - rewrite S4, S3, S2, S1; reflexivity.
  - rewrite S4, S3, S2, S1; reflexivity.
  - rewrite S4, S3, S2 by reflexivity. apply (first_of_follows s_plane st_plane plane_words c). reflexivity.
  - rewrite S4, S3 by reflexivity. rewrite <- (S1 _ s_unit) by reflexivity.
    eapply (follows_keeps unit_words _ _ _ _ _ k1); [reflexivity|].
    apply (first_of_follows s_unit st_unit unit_words c1). reflexivity.
  - rewrite S4 by reflexivity. rewrite <- (S1 _ s_coord), <- (S2 _ s_coord) by reflexivity.
    eapply (follows_keeps coord_words _ _ _ _ _ K2); [reflexivity|].
    apply (first_of_follows s_coord st_coord coord_words c2). reflexivity.
  - rewrite <- (S1 _ s_dist), <- (S2 _ s_dist), <- (S3 _ s_dist) by reflexivity.
    eapply (follows_keeps dist_words _ _ _ _ _ K3); [reflexivity|].
    apply (first_of_follows s_dist st_dist dist_words c3). reflexivity.
Qed.

Lemma tail_st (c : gcode) : g_st (parse_tail c) = g_st c.
Proof. unfold parse_tail. destruct (hasWords (g_block c)); reflexivity. Qed.
Lemma tail_res (c : gcode) : g_res (parse_tail c) = OkContextUpdateOnly.
Proof. reflexivity. Qed.
Lemma tail_err (c : gcode) : g_err (parse_tail c) = ENone.
Proof. reflexivity. Qed.

(** *** a motion *)
Definition moved (s : gstate) : gstate := updatePosition K (st_next (map (next_axis K s) axes) s).
Lemma calcMotion_state b s m s' m' : calcMotion K pi b s m = Ok (s', m') -> s' = moved s.
Proof.
  unfold calcMotion. cbv [calcNextPosition]. cbn beta iota zeta.
  destruct (calcArcCenterAndRadius _ _ _ _); [|discriminate]. intros E. now inversion E.
Qed.
Lemma do_motion_ok t c m c' m' : do_motion K pi t c m = Ok (c', m') ->
  calcMotion K pi (g_block c) (g_st c) (sm_with_type t m) = Ok (moved (g_st c), m') /\
  c' = on_state (fun _ => moved (g_st c)) c.
Proof.
  unfold do_motion, rbind. destruct (calcMotion _ _ _ _ _) as [[s1 m1]|] eqn:E; [|discriminate].
  intros H. inversion H; subst. pose proof (calcMotion_state _ _ _ _ _ E). subst. auto.
Qed.

Definition mtype (g : mMotion) : motionType :=
  match g with G0 => traverse | G1 => feedLinear | G2 => feedHelicalCW | G3 => feedHelicalCCW end.

(** What a block that is not rejected for a collision does, with the state [sH]
    after the first and [sM] after the second group of words. *)
Inductive outcome (ws : list word) (b : block) (sH sM : gstate) (m : smotion D) : gcode -> smotion D -> Prop :=
| out_dwell x c' m' : dwell K ws -> has_value ws cP x -> nleb K zero x = true ->
    calcMotion K pi b (st_letter LtP x sH) (sm_with_type pauseAndResume m) = Ok (moved (st_letter LtP x sH), m') ->
    g_st c' = moved (st_letter LtP x sH) -> g_res c' = OkContextUpdateAndMotion ->
    outcome ws b sH sM m c' m'
| out_G53 g c' m' : ~ dwell K ws -> has ws cG 530 ->
    (g = G0 /\ has ws cG 0 \/ g = G1 /\ ~ has ws cG 0) ->
    calcMotion K pi b (st_coord G53 sM) (sm_with_type (mtype g) m) = Ok (moved (st_coord G53 sM), m') ->
    g_st c' = st_coord (s_coord sM) (moved (st_coord G53 sM)) -> g_res c' = OkContextUpdateOnly -> g_err c' = ENone ->
    outcome ws b sH sM m c' m'
| out_motion g s' c' m' : ~ dwell K ws -> ~ has ws cG 530 ->
    follows motion_words ws (s_motion sM) g ->
    ((exists l n v, In (l, n, v) motion_words /\ has ws l n) \/ hasAxis b = true) ->
    (has ws cG 10 -> g = G1 -> nltb K zero (letter K sM LtF) = true) ->
    calcMotion K pi b (st_motion g sM) (sm_with_type (mtype g) m) = Ok (moved (st_motion g sM), m') ->
    (s' = moved (st_motion g sM) \/
     s' = st_letter LtF zero (moved (st_motion g sM)) /\ has ws cG 10 /\ g = G1 /\ s_feed sM = G93) ->
    (has ws cG 10 -> g = G1 -> s_feed sM = G93 -> s' = st_letter LtF zero (moved (st_motion g sM))) ->
    g_st c' = s' -> g_res c' = OkContextUpdateAndMotion -> g_err c' = ENone ->
    outcome ws b sH sM m c' m'
| out_nofeed c' m' : ~ dwell K ws -> ~ has ws cG 530 -> ~ has ws cG 0 -> has ws cG 10 ->
    nltb K zero (letter K sM LtF) = false ->
    g_st c' = st_motion G1 sM -> g_res c' = RError -> g_err c' = InvalidFeedrate -> m' = sm_with_type feedLinear m ->
    outcome ws b sH sM m c' m'
| out_none c' m' : ~ dwell K ws -> ~ has ws cG 530 -> (forall l n v, In (l, n, v) motion_words -> ~ has ws l n) ->
    hasAxis b = false -> g_st c' = sM -> g_res c' = OkContextUpdateOnly -> g_err c' = ENone -> m' = m ->
    outcome ws b sH sM m c' m'.

Lemma arc_counts b b' (s : gstate) (m : smotion D) : hasOffset b = hasOffset b' -> hasRadius b = hasRadius b' ->
  calcMotion K pi b s m = calcMotion K pi b' s m.
Proof. intros A B. unfold calcMotion, calcArcCenterAndRadius. now rewrite A, B. Qed.

Lemma motion_lemma c m c' m' ws : ~ dwell K ws -> ~ has ws cG 530 ->
  (forall l n v, In (l, n, v) motion_words -> has (W c) l n <-> has ws l n) ->
  parse_motion K pi c m = Ok (c', m') -> forall sH, outcome ws (g_block c) sH (g_st c) m c' m'.
Proof.
  intros ND N53 HW H sH. unfold parse_motion in H.
  pose proof (HW cG 0 G0 ltac:(cbn; tauto)) as W0. pose proof (HW cG 10 G1 ltac:(cbn; tauto)) as W1.
  pose proof (HW cG 20 G2 ltac:(cbn; tauto)) as W2. pose proof (HW cG 30 G3 ltac:(cbn; tauto)) as W3.
  destruct (search2 (g_block c) cG 0) as [i|] eqn:E0.
  { unfold rbind in H. destruct (do_motion _ _ _ _ _) as [[c1 m1]|] eqn:E; [|discriminate].
    apply do_motion_ok in E. destruct E as [E ->]. cbn [fst snd g_block g_st on_state set_result] in *. inversion H; subst; clear H.
    apply search2_has in E0.
    eapply (out_motion _ _ _ _ _ G0); auto.
    - left. exists cG, 0. split; [cbn; tauto|tauto].
    - left. exists cG, 0, G0. split; [cbn; tauto|tauto].
    - discriminate.
    - discriminate. }
  apply search2_none in E0.
  destruct (search2 (g_block c) cG 10) as [i|] eqn:E1.
  { apply search2_has in E1.
    change (letter K (g_st (on_state (st_motion G1) c)) LtF) with (letter K (g_st c) LtF) in H.
    destruct (nltb K zero (letter K (g_st c) LtF)) eqn:EF.
    - unfold rbind in H. destruct (do_motion _ _ _ _ _) as [[c1 m1]|] eqn:E; [|discriminate].
      apply do_motion_ok in E. destruct E as [E ->]. cbn [fst snd g_block g_st on_state on_block g_remove set_result] in *.
      change (s_feed (moved (st_motion G1 (g_st c)))) with (s_feed (g_st c)) in H.
      destruct (s_feed (g_st c)) eqn:EM; inversion H; subst; clear H.
      + eapply (out_motion _ _ _ _ _ G1 (moved (st_motion G1 (g_st c)))); auto.
        * left. exists cG, 10. split; [cbn; tauto|tauto].
        * left. exists cG, 10, G1. split; [cbn; tauto|tauto].
        * congruence.
      + eapply (out_motion _ _ _ _ _ G1 (st_letter LtF zero (moved (st_motion G1 (g_st c))))); auto.
        * left. exists cG, 10. split; [cbn; tauto|tauto].
        * left. exists cG, 10, G1. split; [cbn; tauto|tauto].
        * right. tauto.
    - inversion H; subst. apply out_nofeed; auto; tauto. }
  apply search2_none in E1.
  destruct (search2 (g_block c) cG 20) as [i|] eqn:E2.
  { unfold rbind in H. destruct (do_motion _ _ _ _ _) as [[c1 m1]|] eqn:E; [|discriminate].
    apply do_motion_ok in E. destruct E as [E ->]. cbn [fst snd g_block g_st on_state set_result] in *. inversion H; subst; clear H.
    apply search2_has in E2.
    eapply (out_motion _ _ _ _ _ G2); auto.
    - left. exists cG, 20. split; [cbn; tauto|tauto].
    - left. exists cG, 20, G2. split; [cbn; tauto|tauto].
    - discriminate.
    - discriminate. }
  apply search2_none in E2.
  destruct (search2 (g_block c) cG 30) as [i|] eqn:E3.
  { unfold rbind in H. destruct (do_motion _ _ _ _ _) as [[c1 m1]|] eqn:E; [|discriminate].
    apply do_motion_ok in E. destruct E as [E ->]. cbn [fst snd g_block g_st on_state set_result] in *. inversion H; subst; clear H.
    apply search2_has in E3.
    eapply (out_motion _ _ _ _ _ G3); auto.
    - left. exists cG, 30. split; [cbn; tauto|tauto].
    - left. exists cG, 30, G3. split; [cbn; tauto|tauto].
    - discriminate.
    - discriminate. }
  apply search2_none in E3.
  assert (NM : forall l n v, In (l, n, v) motion_words -> ~ has ws l n).
  { intros l n v I. rewrite <- (HW _ _ _ I). cbn in I. destruct I as [I|[I|[I|[I|[]]]]]; inversion I; subst; assumption. }
  destruct (hasAxis (g_block c)) eqn:EA.
  - unfold rbind in H. destruct (do_motion _ _ _ _ _) as [[c1 m1]|] eqn:E; [|discriminate].
    apply do_motion_ok in E. destruct E as [E ->]. cbn [fst snd g_block g_st on_state set_result] in *. inversion H; subst; clear H.
    assert (ES : st_motion (s_motion (g_st c)) (g_st c) = g_st c) by (destruct (g_st c); reflexivity).
    eapply (out_motion _ _ _ _ _ (s_motion (g_st c)) (moved (g_st c))); rewrite ?ES; auto; try (intros X; exfalso; tauto).
    right. auto.
  - inversion H; subst. apply out_none; auto.
    unfold parse_tail. destruct (hasWords (g_block c)); reflexivity.
Qed.

Lemma G53_lemma c m i c' m' ws : ~ dwell K ws -> has ws cG 530 -> (has (W c) cG 0 <-> has ws cG 0) ->
  parse_G53 K pi c m i = Ok (c', m') -> forall sH, outcome ws (g_block c) sH (g_st c) m c' m'.
Proof.
  intros ND E53 W0 HR sH. unfold parse_G53 in HR.
  change (g_block (on_state (st_coord G53) c)) with (g_block c) in HR.
  destruct (search2 (g_block c) cG 0) as [j|] eqn:E0.
  - apply search2_has in E0. unfold rbind in HR.
    destruct (do_motion _ _ _ _ _) as [[c1 m1]|] eqn:E; [|discriminate].
    apply do_motion_ok in E. destruct E as [E ->]. cbn [fst snd] in HR. injection HR as <- <-.
    apply (out_G53 _ _ _ _ _ G0); [exact ND|tauto|tauto|exact E|rewrite tail_st; reflexivity|apply tail_res|apply tail_err].
  - apply search2_none in E0. destruct (search2 (g_block c) cG 10) as [j|]; unfold rbind in HR.
    + destruct (do_motion _ _ _ _ _) as [[c1 m1]|] eqn:E; [|discriminate].
      apply do_motion_ok in E. destruct E as [E ->]. cbn [fst snd] in HR. injection HR as <- <-.
      apply (out_G53 _ _ _ _ _ G1); [exact ND|tauto|tauto|exact E|rewrite tail_st; reflexivity|apply tail_res|apply tail_err].
    + destruct (do_motion _ _ _ _ _) as [[c1 m1]|] eqn:E; [|discriminate].
      apply do_motion_ok in E. destruct E as [E ->]. cbn [fst snd] in HR. injection HR as <- <-.
      apply (out_G53 _ _ _ _ _ G1); [exact ND|tauto|tauto|exact E|rewrite tail_st; reflexivity|apply tail_res|apply tail_err].
Qed.

Lemma outcome_block ws b b' sH sM m c' m' : hasAxis b' = hasAxis b -> hasOffset b' = hasOffset b -> hasRadius b' = hasRadius b ->
  outcome ws b sH sM m c' m' -> outcome ws b' sH sM m c' m'.
Proof.
  intros YA YO YR O. destruct O.
  - rewrite <- (arc_counts b' b) in H2 by assumption. eapply out_dwell; eauto.
  - rewrite <- (arc_counts b' b) in H2 by assumption. eapply out_G53; eauto.
  - rewrite <- (arc_counts b' b) in H4 by assumption. rewrite <- YA in H2. eapply (out_motion _ _ _ _ _ g); eauto.
  - eapply out_nofeed; eauto.
  - rewrite <- YA in H2. eapply out_none; eauto.
Qed.

Definition parse_rest (c : gcode) (m : smotion D) : res (gcode * smotion D) :=
  match search2 (g_block (parse_modes c)) cG 530 with
  | Some i => parse_G53 K pi (parse_modes c) m i
  | None => parse_motion K pi (parse_modes c) m
  end.

Lemma rest_lemma c cH cD m0 c' m' : head_ok K c cH -> g_block cD = g_block cH -> g_st cD = g_st cH -> ~ dwell K (W c) ->
  parse_rest cD m0 = Ok (c', m') ->
  exists cH cM, head_ok K c cH /\ modes_ok cH cM /\
       outcome (W c) (g_block c) (g_st cH) (g_st cM) m0 c' m'.
Proof.
  intros HH' EB ES ND HR. assert (Kp : keeps r_head c cH) by exact (h_keeps _ _ _ HH'). unfold parse_rest in HR.
    pose proof (modes_lemma cD) as HM. remember (parse_modes cD) as cM eqn:EM. clear EM.
    assert (HM' : modes_ok cH cM).
    { destruct HM as [Q0 Q1 Q2 Q3 Q4 Q5 Q6 Q7 Q8 Q9 Q10 Q11 Q12 Q13 Q14].
      unfold keeps, W in *. rewrite EB in *. rewrite ES in *. constructor; assumption. }
    clear HM. pose proof (keeps_trans _ _ _ _ _ Kp (o_keeps _ _ HM')) as KM.
    destruct (hasX_keeps _ _ _ KM) as (YA & YO & YR).
    exists cH, cM. split; [exact HH'|]. split; [exact HM'|].
    assert (W53 : has (W cM) cG 530 <-> has (W c) cG 530) by (apply (has_keeps _ _ _ _ _ KM); reflexivity).
    assert (WM : forall l n v, In (l, n, v) motion_words -> has (W cM) l n <-> has (W c) l n).
    { intros l n v I. apply (has_keeps _ _ _ _ _ KM). cbn in I. destruct I as [I|[I|[I|[I|[]]]]]; inversion I; subst; reflexivity. }
    destruct (search2 (g_block cM) cG 530) as [i|] eqn:E53.
    - apply search2_has in E53.
      pose proof (G53_lemma cM m0 i c' m' (W c) ND ltac:(tauto) (WM cG 0 G0 ltac:(cbn; tauto)) HR (g_st cH)) as O.
      clear - O YA YO YR. apply (outcome_block _ (g_block cM)); [symmetry; assumption..|exact O].
    - apply search2_none in E53.
      pose proof (motion_lemma cM m0 c' m' (W c) ND ltac:(tauto) WM HR (g_st cH)) as O.
      clear - O YA YO YR. apply (outcome_block _ (g_block cM)); [symmetry; assumption..|exact O].
Qed.

Lemma parse_eq c m : parseBlock K pi c m = (let c := set_result EmptyBlock ENone c in
    let m := sm_with_type mt_none m in
    if groupViolation (g_block c) then Ok (set_result RError ModalGroupCollision c, m)
    else if letterViolation (g_block c) then Ok (set_result RError ValueWordCollision c, m)
    else r <- parse_dwell K pi (parse_head K c) m ;;
         match r with inl out => Ok out | inr c => parse_rest c m end).
Proof. unfold parseBlock, parse_rest. reflexivity. Qed.

Lemma dwell_lemma c m r : (forall x y, has_value (W c) cP x -> has_value (W c) cP y -> x = y) -> parse_dwell K pi c m = Ok r ->
  match r with
  | inl (c', m') => exists x, dwell K (W c) /\ has_value (W c) cP x /\ nleb K zero x = true /\
      calcMotion K pi (g_block c) (st_letter LtP x (g_st c)) (sm_with_type pauseAndResume m) = Ok (moved (st_letter LtP x (g_st c)), m') /\
      g_st c' = moved (st_letter LtP x (g_st c)) /\ g_res c' = OkContextUpdateAndMotion
  | inr c' => g_block c' = g_block c /\ g_st c' = g_st c /\ ~ dwell K (W c)
  end.
Proof.
  intros NL H. unfold parse_dwell in H.
  destruct (search2 (g_block c) cG 40) as [i|] eqn:E40.
  - apply search2_has in E40.
    pose proof (search1_spec c cP) as SP. destruct (search1 (g_block c) cP) as [j|].
    + destruct SP as (w & Nw & Ew).
      assert (WN : word_number K c j = w_number w) by (unfold word_number; unfold W in Nw; now rewrite Nw).
      assert (HV : has_value (W c) cP (w_number w)).
      { exists w. split; [eapply nth_error_In; eauto|auto]. }
      rewrite WN in H. destruct (nleb K zero (w_number w)) eqn:T.
      * unfold rbind in H. destruct (do_motion _ _ _ _ _) as [[c1 m1]|] eqn:E; [|discriminate].
        apply do_motion_ok in E. destruct E as [E ->]. cbn [fst snd] in H. injection H as <-.
        exists (w_number w). split; [split; [exact E40|eauto]|]. split; [exact HV|]. split; [exact T|]. split; [exact E|]. split; reflexivity.
      * injection H as <-. split; [reflexivity|]. split; [reflexivity|].
        intros (_ & x & Hx & Tx). rewrite (NL _ _ Hx HV) in Tx. congruence.
    + injection H as <-. split; [reflexivity|]. split; [reflexivity|].
      intros (_ & x & (w & Iw & Ew & _) & _). apply SP. exists w. auto.
  - apply search2_none in E40. injection H as <-. split; [reflexivity|]. split; [reflexivity|].
    intros (X & _). apply E40. exact X.
Qed.

Lemma parse_shape c m c' m' : counted (g_block c) -> length (s_letters (g_st c)) = 13%nat ->
  ~ group_collision (W c) -> ~ letter_collision (W c) ->
  parseBlock K pi c m = Ok (c', m') ->
  exists cH cM, head_ok K c cH /\ modes_ok cH cM /\
    outcome (W c) (g_block c) (g_st cH) (g_st cM) (sm_with_type mt_none m) c' m'.
Proof.
  intros C L NG NL H.
  rewrite parse_eq in H. cbv zeta in H. set (c0 := set_result EmptyBlock ENone c) in H.
  change (g_block c0) with (g_block c) in H.
  destruct (groupViolation (g_block c)) eqn:EG; [apply (group_violation K _ C) in EG; contradiction|].
  destruct (letterViolation (g_block c)) eqn:EL; [apply (letter_violation K _ C) in EL; contradiction|].
  assert (HH : head_ok K c0 (parse_head K c0)).
  { apply head_lemma; [apply counted_gated; exact C|exact L]. }
  remember (parse_head K c0) as cH eqn:EH. clear EH.
  remember (sm_with_type mt_none m) as m0.
  assert (Kp : keeps r_head c cH) by exact (h_keeps _ _ _ HH).
  assert (HH' : head_ok K c cH) by (destruct HH; constructor; assumption). clear HH.
  destruct (hasX_keeps _ _ _ Kp) as (XA & XO & XR).
  assert (P40 : has (W cH) cG 40 <-> has (W c) cG 40) by (apply (has_keeps r_head); [exact Kp|reflexivity]).
  assert (PV : forall x, has_value (W cH) cP x <-> has_value (W c) cP x) by (intros; apply (value_keeps r_head); [exact Kp|reflexivity]).
  assert (DW : dwell K (W cH) <-> dwell K (W c)).
  { unfold dwell. rewrite P40. split; intros (A & x & B & T); (split; [exact A|]); exists x; (split; [now apply PV|exact T]). }
  destruct (parse_dwell K pi cH m0) as [r|] eqn:ED; [|discriminate H].
  apply dwell_lemma in ED.
  2:{ intros x y A B. apply PV in A, B. exact (value_unique _ cP LtP _ _ NL ltac:(cbn; tauto) A B). }
  unfold rbind in H. destruct r as [[c1 m1]|cD].
  - injection H as -> ->. destruct ED as (x & D1 & D2 & D3 & D4 & D5 & D6).
    exists cH, (parse_modes cH). split; [exact HH'|]. split; [apply modes_lemma|].
    rewrite (arc_counts _ (g_block c)) in D4 by assumption.
    eapply out_dwell; [apply DW, D1|apply PV, D2|exact D3|exact D4|exact D5|exact D6].
  - destruct ED as (EB & ES & ND). eapply (rest_lemma c cH cD m0); eauto. now rewrite <- DW.
Qed.
End P.
