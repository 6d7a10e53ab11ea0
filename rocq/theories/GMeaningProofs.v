(** Proofs about gcode.cpp, continued: what a block means (any arithmetic). *)
Require Import List Arith NArith ZArith Bool Lia ZifyBool ZifyNat ZifyN Permutation.
From Verif Require Import Base Num MotionModel GcodeModel GcodeSpec GBlockProofs GParseProofs GHeadProofs GStageProofs.
Import ListNotations.
Open Scope N_scope.

Section P.
Context {D : Type} (K : num D) (pi : D).
Local Notation word := (@word D).
Local Notation block := (@block D).
Local Notation gstate := (@gstate D).
Local Notation gcode := (@gcode D).
Local Notation zero := (nofZ K 0).
Local Notation parse := (parseBlock K pi).

(** From a line to the outcome of its block. *)
Lemma line_parse c m l c' m' : g_line K pi c m l = Ok (c', m') ->
  exists b, getBlock K l = Ok b /\ parse (mkGC b (g_st c) (g_res c) (g_err c)) m = Ok (c', m') /\ from_line K b /\ counted b.
Proof.
  unfold g_line, g_getBlock, rbind. destruct (getBlock K l) as [b|] eqn:E; [|discriminate].
  intros H. exists b. assert (from_line K b) by (exists l; exact E).
  split; [reflexivity|]. split; [exact H|]. split; [assumption|]. now apply (counted_line K).
Qed.
Lemma line_words_unique l (ws ws' : list word) : line_words K l ws -> line_words K l ws' -> ws = ws'.
Proof. intros (b & E & <-) (b' & E' & <-). rewrite E in E'. now inversion E'. Qed.

Definition head_st (c : gcode) (s' : gstate) (ws : list word) : Prop :=
  exists cH, head_ok K c cH /\ g_st cH = s' /\ W c = ws.

Lemma line_cases c m l c' m' ws : line_words K l ws -> sized (g_st c) -> g_line K pi c m l = Ok (c', m') ->
  (~ consistent ws /\ g_st c' = g_st c /\ g_res c' = RError /\ m' = sm_with_type mt_none m /\
     (g_err c' = ModalGroupCollision \/ g_err c' = ValueWordCollision)) \/
  (consistent ws /\ exists b c0 cH cM, counted b /\ b_words b = ws /\ g_block c0 = b /\ g_st c0 = g_st c /\
     head_ok K c0 cH /\ modes_ok cH cM /\
     outcome K pi ws b (g_st cH) (g_st cM) (sm_with_type mt_none m) c' m').
Proof.
  intros LW SZ H. destruct (line_parse _ _ _ _ _ H) as (b & E & P & FL & C).
  assert (EW : b_words b = ws) by (eapply line_words_unique; [exists b; eauto|exact LW]).
  pose proof (collision_lemma K pi b (g_st c) (g_res c) (g_err c) m FL) as (CG & CL).
  destruct (groupViolation b) eqn:EG.
  { apply (group_violation K b C) in EG. rewrite (CG EG) in P. injection P as <- <-. left.
    split; [intros (X & _); rewrite <- EW in X; tauto|]. cbn. auto. }
  assert (NG : ~ group_collision (b_words b)) by (intros X; apply (group_violation K b C) in X; congruence).
  destruct (letterViolation b) eqn:EL.
  { apply (letter_violation K b C) in EL. rewrite (CL NG EL) in P. injection P as <- <-. left.
    split; [intros (_ & X); rewrite <- EW in X; tauto|]. cbn. auto. }
  assert (NL : ~ letter_collision (b_words b)) by (intros X; apply (letter_violation K b C) in X; congruence).
  right. split; [rewrite <- EW; split; assumption|].
  destruct (parse_shape K pi (mkGC b (g_st c) (g_res c) (g_err c)) m c' m' C (proj1 SZ) NG NL P) as (cH & cM & HH & HM & O).
  exists b, (mkGC b (g_st c) (g_res c) (g_err c)), cH, cM. rewrite <- EW.
  split; [exact C|]. split; [reflexivity|]. split; [reflexivity|]. split; [reflexivity|]. split; [exact HH|]. split; [exact HM|]. exact O.
Qed.

(** sizes *)
Lemma sized_moved s : sized s -> sized (moved K s).
Proof. intros (A & B & C & E & F). repeat split; try assumption; reflexivity. Qed.
Lemma sized_fields (s s' : gstate) : length (s_letters s') = length (s_letters s) ->
  s_cur s' = s_cur s -> s_next s' = s_next s -> s_wcs s' = s_wcs s -> sized s -> sized s'.
Proof. unfold sized. intros -> -> -> ->. auto. Qed.

Lemma sized_line c m l c' m' : sized (g_st c) -> g_line K pi c m l = Ok (c', m') -> sized (g_st c') /\ s_wcs (g_st c') = s_wcs (g_st c).
Proof.
  intros SZ H. destruct (line_parse _ _ _ _ _ H) as (b0 & E & _).
  destruct (line_cases c m l c' m' (b_words b0) ltac:(exists b0; auto) SZ H) as [(_ & -> & _)|(_ & b & c0 & cH & cM & _ & _ & _ & E0 & HH & HM & O)]; [auto|].
  assert (SH : sized (g_st cH)).
  { apply (sized_fields (g_st c)); rewrite <- ?E0; [apply (h_len _ _ _ HH)|apply (h_cur _ _ _ HH)|apply (h_next _ _ _ HH)|apply (h_wcs _ _ _ HH)|].
    rewrite E0. exact SZ. }
  assert (SM : sized (g_st cM)).
  { apply (sized_fields (g_st cH)); [now rewrite (o_letters _ _ HM)|apply (o_cur _ _ HM)|apply (o_next _ _ HM)|apply (o_wcs _ _ HM)|exact SH]. }
  assert (WH : s_wcs (g_st cH) = s_wcs (g_st c)) by (rewrite (h_wcs _ _ _ HH), E0; reflexivity).
  assert (WM : s_wcs (g_st cM) = s_wcs (g_st c)) by (rewrite (o_wcs _ _ HM); exact WH).
  destruct O as [x c' m' D1 D2 D3 D4 D5 D6|g c' m' D1 D2 D3 D4 D5 D6 D7|g s' c' m' D1 D2 D3 D4 D5 D6 D7 D8 D9 D10 D11|c' m' D1 D2 D3 D4 D5 D6 D7 D8 D9|c' m' D1 D2 D3 D4 D5 D6 D7 D8].
  - rewrite D5. split; [|exact WH]. apply sized_moved. destruct SH as (A & B). split; [cbn; rewrite length_upd; exact A|exact B].
  - rewrite D5. split; [|exact WM]. apply (sized_moved (st_coord G53 (g_st cM)) SM).
  - rewrite D9. destruct D7 as [->|(-> & _)]; (split; [|exact WM]); pose proof (sized_moved (st_motion g (g_st cM)) SM) as X; [exact X|].
    destruct X as (A & B). split; [cbn; rewrite length_upd; exact A|exact B].
  - rewrite D6. split; [exact SM|exact WM].
  - rewrite D5. auto.
Qed.

Lemma seven_ne ch g : In (ch, g) [(cX, LtX); (cY, LtY); (cZ, LtZ); (cI, LtI); (cJ, LtJ); (cK, LtK); (cR, LtR)] -> g <> LtP /\ g <> LtF.
Proof. cbn. intuition congruence. Qed.

(** C40 *)
Lemma modal_lemma c m l c' m' ws : line_words K l ws -> consistent ws -> sized (g_st c) ->
  g_line K pi c m l = Ok (c', m') ->
  let s := g_st c in let s' := g_st c' in
  (follows feed_words ws (s_feed s) (s_feed s') /\
   follows spindle_words ws (s_spindle s) (s_spindle s') /\
   follows over_words ws (s_over s) (s_over s') /\
   follows flood_words ws (s_flood s) (s_flood s') /\
   follows mist_words ws (s_mist s) (s_mist s')) /\
  (~ dwell K ws ->
     follows unit_words ws (s_unit s) (s_unit s') /\
     follows plane_words ws (s_plane s) (s_plane s') /\
     follows dist_words ws (s_dist s) (s_dist s') /\
     follows coord_words ws (s_coord s) (s_coord s') /\
     (~ has ws cG 530 -> follows motion_words ws (s_motion s) (s_motion s'))) /\
  (has ws cG 530 -> s_motion s' = s_motion s) /\
  (dwell K ws -> s_unit s' = s_unit s /\ s_plane s' = s_plane s /\ s_dist s' = s_dist s /\
                 s_coord s' = s_coord s /\ s_motion s' = s_motion s).
Proof.
  intros LW CO SZ H. cbv zeta.
  destruct (line_cases c m l c' m' ws LW SZ H) as [(N & _)|(_ & b & c0 & cH & cM & C & EB & E1 & E0 & HH & HM & O)]; [contradiction|].
  assert (EW : W c0 = ws) by (unfold W; rewrite E1; exact EB).
  destruct HH as [K1 H2 H3 H4 H5 H6 H7 H8 H9 H10 H11 H12 H13 H14 H15 H16 H17 H18 H19 H20].
  destruct HM as [K2 O1 O2 O3 O4 O5 O6 O7 O8 O9 O10 O11 O12 O13 O14].
  rewrite E0, EW in *.
  assert (U : follows unit_words ws (s_unit (g_st c)) (s_unit (g_st cM))).
  { rewrite <- H4. rewrite <- EW. eapply (follows_keeps unit_words _ _ _ _ _ K1); [reflexivity|exact O12]. }
  assert (Pl : follows plane_words ws (s_plane (g_st c)) (s_plane (g_st cM))).
  { rewrite <- H3. rewrite <- EW. eapply (follows_keeps plane_words _ _ _ _ _ K1); [reflexivity|exact O11]. }
  assert (Di : follows dist_words ws (s_dist (g_st c)) (s_dist (g_st cM))).
  { rewrite <- H5. rewrite <- EW. eapply (follows_keeps dist_words _ _ _ _ _ K1); [reflexivity|exact O14]. }
  assert (Co : follows coord_words ws (s_coord (g_st c)) (s_coord (g_st cM))).
  { rewrite <- H6. rewrite <- EW. eapply (follows_keeps coord_words _ _ _ _ _ K1); [reflexivity|exact O13]. }
  rewrite <- O2 in H10. rewrite <- O3 in H11. rewrite <- O4 in H12. rewrite <- O5 in H13. rewrite <- O6 in H14.
  destruct O as [x c' m' D1 D2 D3 D4 D5 D6|g c' m' D1 D2 D3 D4 D5 D6 D7|g s' c' m' D1 D2 D3 D4 D5 D6 D7 D8 D9 D10 D11|c' m' D1 D2 D3 D4 D5 D6 D7 D8 D9|c' m' D1 D2 D3 D4 D5 D6 D7 D8].
  - rewrite D5. cbn. rewrite <- O2, <- O3, <- O4, <- O5, <- O6. split; [repeat split; assumption|].
    split; [intros X; destruct (X D1)|]. split; auto.
  - rewrite D5. cbn. split; [repeat split; assumption|].
    split; [intros _; repeat (split; [assumption|]); intros X; destruct (X D2)|].
    split; [|intros X; destruct (D1 X)]. intros _. now rewrite O1, H2.
  - assert (X : forall V (pr : gstate -> V), (forall x s, pr (st_letter LtF x s) = pr s) -> pr (g_st c') = pr (moved K (st_motion g (g_st cM)))).
    { intros V pr HF. rewrite D9. destruct D7 as [->|(-> & _)]; auto. }
    rewrite (X _ s_feed), (X _ s_spindle), (X _ s_over), (X _ s_flood), (X _ s_mist), (X _ s_unit), (X _ s_plane), (X _ s_dist), (X _ s_coord), (X _ s_motion) by reflexivity.
    cbn. split; [repeat split; assumption|]. split; [rewrite O1, H2 in D3; auto|].
    split; [intros Y; destruct (D2 Y)|intros Y; destruct (D1 Y)].
  - rewrite D6. cbn. split; [repeat split; assumption|].
    split; [|split; [intros Y; destruct (D2 Y)|intros Y; destruct (D1 Y)]]. intros _.
    repeat (split; [assumption|]). intros _.
    left. exists cG, 10. split; [cbn; auto|assumption].
  - rewrite D5. split; [repeat split; assumption|].
    split; [|split; [intros Y; destruct (D2 Y)|intros Y; destruct (D1 Y)]]. intros _.
    repeat (split; [assumption|]). intros _.
    right. split; [now rewrite O1, H2|assumption].
Qed.

(** C40, parameter values *)
Lemma letters_lemma c m l c' m' ws : line_words K l ws -> consistent ws -> sized (g_st c) ->
  g_line K pi c m l = Ok (c', m') ->
  let s := g_st c in let s' := g_st c' in
  (forall ch g, In (ch, g) [(cX, LtX); (cY, LtY); (cZ, LtZ); (cI, LtI); (cJ, LtJ); (cK, LtK); (cR, LtR)] ->
     follows_letter ch ws (letter K s g) (letter K s' g)) /\
  ((has_value ws cS (letter K s' LtS) /\ nleb K zero (letter K s' LtS) = true) \/
   (letter K s' LtS = letter K s LtS /\
    (~ has_letter ws cS \/ exists x, has_value ws cS x /\ nleb K zero x = false))) /\
  (letter K s' LtF = letter K s LtF \/ has_value ws cF (letter K s' LtF) \/
   (letter K s' LtF = zero /\
    ((exists l n v, In (l, n, v) feed_words /\ has ws l n) \/ (has ws cG 10 /\ s_feed s' = G93)))) /\
  (letter K s' LtN = letter K s LtN \/ has_value ws cN (letter K s' LtN)) /\
  (letter K s' LtP = letter K s LtP /\ ~ dwell K ws \/ has_value ws cP (letter K s' LtP) /\ dwell K ws) /\
  letter K s' LtL = letter K s LtL /\ letter K s' LtT = letter K s LtT.
Proof.
  intros LW CO SZ H. cbv zeta.
  destruct (line_cases c m l c' m' ws LW SZ H) as [(N & _)|(_ & b & c0 & cH & cM & C & EB & E1 & E0 & HH & HM & O)]; [contradiction|].
  assert (EW : W c0 = ws) by (unfold W; rewrite E1; exact EB).
  destruct HH as [K1 H2 H3 H4 H5 H6 H7 H8 H9 H10 H11 H12 H13 H14 H15 H16 H17 H18 H19 H20].
  destruct HM as [K2 O1 O2 O3 O4 O5 O6 O7 O8 O9 O10 O11 O12 O13 O14].
  rewrite E0, EW in *.
  assert (LM : forall g, letter K (g_st cM) g = letter K (g_st cH) g) by (intros; unfold letter; now rewrite O7).
  assert (L13 : length (s_letters (g_st cH)) = 13%nat) by (rewrite H20; apply SZ).
  assert (F' : letter K (g_st cH) LtF = letter K (g_st c) LtF \/ has_value ws cF (letter K (g_st cH) LtF) \/
     (letter K (g_st cH) LtF = zero /\ (exists l n v, In (l, n, v) feed_words /\ has ws l n))).
  { destruct H19 as [(A & _)|([(A & B)|(A & B)] & _)]; auto. }
  assert (GEN : forall s' : gstate, s_letters s' = s_letters (g_st cH) -> ~ dwell K ws ->
    (forall ch g, In (ch, g) [(cX, LtX); (cY, LtY); (cZ, LtZ); (cI, LtI); (cJ, LtJ); (cK, LtK); (cR, LtR)] ->
     follows_letter ch ws (letter K (g_st c) g) (letter K s' g)) /\
  ((has_value ws cS (letter K s' LtS) /\ nleb K zero (letter K s' LtS) = true) \/
   (letter K s' LtS = letter K (g_st c) LtS /\
    (~ has_letter ws cS \/ exists x, has_value ws cS x /\ nleb K zero x = false))) /\
  (letter K s' LtF = letter K (g_st c) LtF \/ has_value ws cF (letter K s' LtF) \/
   (letter K s' LtF = zero /\
    ((exists l n v, In (l, n, v) feed_words /\ has ws l n) \/ (has ws cG 10 /\ s_feed s' = G93)))) /\
  (letter K s' LtN = letter K (g_st c) LtN \/ has_value ws cN (letter K s' LtN)) /\
  (letter K s' LtP = letter K (g_st c) LtP /\ ~ dwell K ws \/ has_value ws cP (letter K s' LtP) /\ dwell K ws) /\
  letter K s' LtL = letter K (g_st c) LtL /\ letter K s' LtT = letter K (g_st c) LtT).
  { intros s' ES ND. assert (LL : forall g, letter K s' g = letter K (g_st cH) g) by (intros; unfold letter; now rewrite ES).
    rewrite !LL. split; [intros ch g I; rewrite LL; now apply H15|].
    split; [exact H18|]. split; [destruct F' as [F'|[F'|[F' F2]]]; auto|]. split; [exact H17|].
    rewrite (H16 LtL), (H16 LtP), (H16 LtT) by (cbn; auto). auto. }
  destruct O as [x c' m' D1 D2 D3 D4 D5 D6|g c' m' D1 D2 D3 D4 D5 D6 D7|g s' c' m' D1 D2 D3 D4 D5 D6 D7 D8 D9 D10 D11|c' m' D1 D2 D3 D4 D5 D6 D7 D8 D9|c' m' D1 D2 D3 D4 D5 D6 D7 D8].
  - rewrite D5. assert (LL : forall g, g <> LtP -> letter K (moved K (st_letter LtP x (g_st cH))) g = letter K (g_st cH) g).
    { intros g Ng. apply (letter_st_ne K g LtP x (g_st cH) Ng). }
    assert (LP : letter K (moved K (st_letter LtP x (g_st cH))) LtP = x) by (apply (letter_st_eq K LtP x (g_st cH)); exact L13).
    rewrite LP. rewrite !LL by discriminate.
    split. { intros ch g I. rewrite LL; [now apply H15|]. now apply (seven_ne ch). }
    split; [exact H18|]. split; [destruct F' as [F'|[F'|[F' F2]]]; auto|]. split; [exact H17|].
    rewrite (H16 LtL), (H16 LtT) by (cbn; auto). auto.
  - rewrite D5. apply GEN; [exact O7|exact D1].
  - destruct D7 as [E|(E & W10 & G1' & F93)].
    + rewrite D9, E. apply GEN; [exact O7|exact D1].
    + pose proof (GEN (moved K (st_motion g (g_st cM))) O7 D1) as (A1 & A2 & A3 & A4 & A5 & A6 & A7).
      rewrite D9, E. 
      assert (LL : forall g', g' <> LtF -> letter K (st_letter LtF zero (moved K (st_motion g (g_st cM)))) g' = letter K (moved K (st_motion g (g_st cM))) g').
      { intros g' Ng. apply (letter_st_ne K g' LtF). exact Ng. }
      rewrite (LL LtS), (LL LtN), (LL LtP), (LL LtL), (LL LtT) by discriminate.
      split. { intros ch g' I. rewrite LL; [now apply A1|]. now apply (seven_ne ch). }
      split; [exact A2|]. split.
      { right. right. split; [|right; split; [exact W10|exact F93]].
        apply (letter_st_eq K LtF). cbn. rewrite O7. exact L13. }
      split; [exact A4|]. split; [exact A5|]. split; [exact A6|exact A7].
  - rewrite D6. apply GEN; [exact O7|exact D1].
  - rewrite D5. apply GEN; [exact O7|exact D1].
Qed.

(** ** Motions *)

(** What is known about the state [sP] in which the motion of a block is calculated. *)
Record calc_ok (ws : list word) (s s' sP : gstate) (b : block) (t : motionType) (m m' : smotion D) : Prop := {
  k_cur : s_cur sP = s_cur s;
  k_cur' : s_cur s' = map (next_axis K sP) axes;
  k_wcs : s_wcs sP = s_wcs s;
  k_dist : s_dist sP = s_dist s';
  k_unit : s_unit sP = s_unit s';
  k_plane : s_plane sP = s_plane s';
  k_coord : s_coord sP = s_coord s' /\ (~ has ws cG 530 \/ dwell K ws) \/ s_coord sP = G53 /\ has ws cG 530 /\ ~ dwell K ws;
  k_feed : s_feed sP = s_feed s';
  k_spindle : s_spindle sP = s_spindle s';
  k_flood : s_flood sP = s_flood s';
  k_mist : s_mist sP = s_mist s';
  k_letters : forall g, g <> LtF -> letter K sP g = letter K s' g;
  k_F : (has_value ws cF (letter K sP LtF) /\ nltb K zero (letter K sP LtF) = true) \/
        (((exists l n v, In (l, n, v) feed_words /\ has ws l n) /\ letter K sP LtF = zero \/
          (forall l n v, In (l, n, v) feed_words -> ~ has ws l n) /\ letter K sP LtF = letter K s LtF) /\
         (~ has_letter ws cF \/ exists x, has_value ws cF x /\ nltb K zero x = false));
  k_b : b_words b = ws /\ counted b;
  k_sized : sized sP;
  k_type : (dwell K ws /\ t = pauseAndResume) \/
           (~ dwell K ws /\ has ws cG 530 /\ (t = traverse /\ has ws cG 0 \/ t = feedLinear /\ ~ has ws cG 0)) \/
           (~ dwell K ws /\ ~ has ws cG 530 /\ t = mtype (s_motion s'));
  k_G1 : has ws cG 10 -> ~ dwell K ws -> ~ has ws cG 530 -> nltb K zero (letter K sP LtF) = true;
  k_calc : calcMotion K pi b sP (sm_with_type t m) = Ok (moved K sP, m') }.

Lemma calcMotion_fields b (s : gstate) m s' m' : calcMotion K pi b s m = Ok (s', m') ->
  sm_type m' = sm_type m /\ sm_start m' = map (nthZ K (s_cur s)) axes /\
  sm_delta m' = map (fun i => nsub K (next_axis K s i) (nthZ K (s_cur s) i)) axes.
Proof.
  unfold calcMotion, calcNextPosition. cbn beta iota zeta.
  unfold calcArcCenterAndRadius.
  set (m1 := setArcAxisFromPlane _ _).
  assert (X1 : sm_type m1 = sm_type m /\ sm_start m1 = map (nthZ K (s_cur s)) axes /\
     sm_delta m1 = map (fun i => nsub K (next_axis K s i) (nthZ K (s_cur s) i)) axes).
  { unfold m1, setArcAxisFromPlane. cbn [sm_type]. destruct (is_helical (sm_type m)); [|split; [reflexivity|split; reflexivity]].
    destruct (plane_axes _). split; [reflexivity|split; reflexivity]. }
  clearbody m1.
  assert (Y : forall m2, sm_type m2 = sm_type m1 -> sm_start m2 = sm_start m1 -> sm_delta m2 = sm_delta m1 -> forall sx,
     let m3 := calcPeripherals K sx (calcSpeedAndOrDuration K sx (calcTrajectoryLength K (calcArcAngles K pi sx m2))) in
     sm_type m3 = sm_type m1 /\ sm_start m3 = sm_start m1 /\ sm_delta m3 = sm_delta m1).
  { intros m2 A B C sx. cbv zeta. unfold calcPeripherals. destruct (s_spindle sx);
    unfold calcSpeedAndOrDuration; cbn [sm_type sm_start sm_delta];
    (destruct (match sm_type _ with | traverse => _ | _ => _ end)); cbn [sm_type sm_start sm_delta calcTrajectoryLength];
    unfold calcArcAngles; (destruct (if is_helical (sm_type m2) then _ else _)); cbn [sm_type sm_start sm_delta]; auto. }
  assert (FIN : forall m2, sm_type m2 = sm_type m1 -> sm_start m2 = sm_start m1 -> sm_delta m2 = sm_delta m1 -> forall sx,
    rbind (Ok m2) (fun m => Ok (updatePosition K sx, calcPeripherals K sx (calcSpeedAndOrDuration K sx (calcTrajectoryLength K (calcArcAngles K pi sx m))))) = Ok (s', m') ->
    sm_type m' = sm_type m /\ sm_start m' = map (nthZ K (s_cur s)) axes /\
     sm_delta m' = map (fun i => nsub K (next_axis K s i) (nthZ K (s_cur s) i)) axes).
  { intros m2 A B C sx H. cbn [rbind] in H. injection H as _ <-. pose proof (Y m2 A B C sx) as (Y1 & Y2 & Y3). cbv zeta in *.
    destruct X1 as (X1 & X2 & X3). split; [congruence|]. split; congruence. }
  destruct (hasOffset b); [|destruct (hasRadius b)].
  - destruct (_ && _)%bool; [|discriminate]. now apply FIN.
  - destruct (_ && _)%bool; [|discriminate]. cbn beta iota zeta. destruct (nltb K _ zero); now apply FIN.
  - now apply FIN.
Qed.

Lemma line_motion c m l c' m' ws : line_words K l ws -> sized (g_st c) -> g_line K pi c m l = Ok (c', m') ->
  (~ made_motion c' m' /\ s_cur (g_st c') = s_cur (g_st c) /\ g_res c' <> OkContextUpdateAndMotion) \/
  (made_motion c' m' /\ consistent ws /\ (exists sP b t, calc_ok ws (g_st c) (g_st c') sP b t (sm_with_type mt_none m) m') /\
   (g_res c' = OkContextUpdateAndMotion /\ (~ has ws cG 530 \/ dwell K ws) \/
    g_res c' = OkContextUpdateOnly /\ has ws cG 530 /\ ~ dwell K ws)).
Proof.
  intros LW SZ H.
  destruct (line_cases c m l c' m' ws LW SZ H) as [(N & E1 & E2 & E3 & _)|(CO & b & c0 & cH & cM & C & EB & E1 & E0 & HH & HM & O)].
  { left. rewrite E1. split; [intros (_ & X); congruence|]. split; [reflexivity|congruence]. }
  assert (EW : W c0 = ws) by (unfold W; rewrite E1; exact EB).
  destruct HH as [K1 H2 H3 H4 H5 H6 H7 H8 H9 H10 H11 H12 H13 H14 H15 H16 H17 H18 H19 H20].
  destruct HM as [K2 O1 O2 O3 O4 O5 O6 O7 O8 O9 O10 O11 O12 O13 O14].
  rewrite E0, EW in *.
  assert (SH : sized (g_st cH)) by (apply (sized_fields (g_st c)); assumption).
  assert (SM : sized (g_st cM)).
  { apply (sized_fields (g_st cH)); [now rewrite O7|assumption|assumption|assumption|exact SH]. }
  assert (LM : forall g, letter K (g_st cM) g = letter K (g_st cH) g) by (intros; unfold letter; now rewrite O7).
  assert (MC : forall s : gstate, s_cur (moved K s) = map (next_axis K s) axes) by reflexivity.
  assert (MT : forall g, mtype g <> mt_none) by (intros []; discriminate).
  destruct O as [x c' m' D1 D2 D3 D4 D5 D6|g c' m' D1 D2 D3 D4 D5 D6 D7|g s' c' m' D1 D2 D3 D4 D5 D6 D7 D8 D9 D10 D11|c' m' D1 D2 D3 D4 D5 D6 D7 D8 D9|c' m' D1 D2 D3 D4 D5 D6 D7 D8].
  - right. destruct (calcMotion_fields _ _ _ _ _ D4) as (T & _).
    split; [split; [rewrite T; discriminate|congruence]|]. split; [exact CO|]. split; [|left; auto].
    exists (st_letter LtP x (g_st cH)), b, pauseAndResume. rewrite D5.
    constructor; try reflexivity; try assumption; auto.
    + now rewrite (letter_st_ne K LtF LtP) by discriminate.
    + destruct SH as (A & B). split; [cbn; rewrite length_upd; exact A|exact B].
  - right. destruct (calcMotion_fields _ _ _ _ _ D4) as (T & _).
    split; [split; [rewrite T; apply MT|congruence]|]. split; [exact CO|]. split; [|right; auto].
    exists (st_coord G53 (g_st cM)), b, (mtype g). rewrite D5.
    constructor; try reflexivity; try assumption; auto.
    + cbn. congruence.
    + cbn. congruence.
    + change (letter K (st_coord G53 (g_st cM)) LtF) with (letter K (g_st cM) LtF). now rewrite LM.
    + right. left. split; [exact D1|]. split; [exact D2|]. destruct D3 as [(-> & X)|(-> & X)]; auto.
  - right. destruct (calcMotion_fields _ _ _ _ _ D6) as (T & _).
    split; [split; [rewrite T; apply MT|congruence]|]. split; [exact CO|]. split; [|left; auto].
    exists (st_motion g (g_st cM)), b, (mtype g).
    assert (X : forall V (pr : gstate -> V), (forall x s, pr (st_letter LtF x s) = pr s) -> pr (g_st c') = pr (moved K (st_motion g (g_st cM)))).
    { intros V pr HF. rewrite D9. destruct D7 as [->|(-> & _)]; auto. }
    assert (XM : s_motion (g_st c') = g) by (rewrite (X _ s_motion) by reflexivity; reflexivity).
    constructor; try assumption; auto.
    + cbn. congruence.
    + rewrite (X _ s_cur) by reflexivity. apply MC.
    + cbn. congruence.
    + rewrite (X _ s_dist) by reflexivity. reflexivity.
    + rewrite (X _ s_unit) by reflexivity. reflexivity.
    + rewrite (X _ s_plane) by reflexivity. reflexivity.
    + left. rewrite (X _ s_coord) by reflexivity. auto.
    + rewrite (X _ s_feed) by reflexivity. reflexivity.
    + rewrite (X _ s_spindle) by reflexivity. reflexivity.
    + rewrite (X _ s_flood) by reflexivity. reflexivity.
    + rewrite (X _ s_mist) by reflexivity. reflexivity.
    + intros g' Ng. rewrite (X _ (fun s => letter K s g')) by (intros; apply letter_st_ne; exact Ng). reflexivity.
    + change (letter K (st_motion g (g_st cM)) LtF) with (letter K (g_st cM) LtF). now rewrite LM.
    + right. right. rewrite XM. auto.
    + intros A _ _. apply D5; [exact A|].
      destruct D3 as [(l1 & n1 & I & Hs)|(_ & Hs)]; [|exfalso; apply (Hs cG 10 G1); [cbn; auto|exact A]].
      destruct CO as (NG & _). cbn in I.
      destruct I as [I|[I|[I|[I|[]]]]]; injection I as <- <- <-; auto; exfalso;
      [pose proof (group_unique ws MgMotion cG 10 cG 0 NG) as U|pose proof (group_unique ws MgMotion cG 10 cG 20 NG) as U|pose proof (group_unique ws MgMotion cG 10 cG 30 NG) as U];
      destruct U as (_ & U); cbn; auto; discriminate U.
  - left. split; [intros (_ & X); congruence|]. rewrite D6. cbn. split; congruence.
  - left. split; [intros (X & _); apply X; rewrite D8; reflexivity|]. rewrite D5. split; congruence.
Qed.

Lemma map_axes (x : list D) : length x = 3%nat -> map (nthZ K x) axes = x.
Proof. destruct x as [|a [|b [|d [|]]]]; cbn; intros E; try discriminate. reflexivity. Qed.
Lemma nth_axes (f : nat -> D) i : (i < 3)%nat -> nthZ K (map f axes) i = f i.
Proof. intros H. destruct i as [|[|[|]]]; try reflexivity. lia. Qed.

(** C41 *)
Lemma join_lemma c m l c' m' : sized (g_st c) -> g_line K pi c m l = Ok (c', m') ->
  (~ made_motion c' m' /\ s_cur (g_st c') = s_cur (g_st c)) \/
  (made_motion c' m' /\ sm_start m' = s_cur (g_st c) /\
   sm_delta m' = map (fun i => nsub K (coord_at K (s_cur (g_st c')) i) (coord_at K (s_cur (g_st c)) i)) [0; 1; 2]%nat).
Proof.
  intros SZ H. destruct (line_parse _ _ _ _ _ H) as (b & E & _).
  destruct (line_motion c m l c' m' (b_words b) ltac:(exists b; auto) SZ H) as [(A & B & _)|(A & CO & (sP & b' & t & KO) & _)]; [left; auto|].
  right. split; [exact A|]. destruct (calcMotion_fields _ _ _ _ _ (k_calc _ _ _ _ _ _ _ _ KO)) as (_ & S1 & S2).
  rewrite (k_cur _ _ _ _ _ _ _ _ KO) in S1, S2. rewrite map_axes in S1 by apply SZ. split; [exact S1|].
  rewrite S2, (k_cur' _ _ _ _ _ _ _ _ KO). reflexivity.
Qed.

Lemma chain_lemma ls : forall c m c' m' outs, sized (g_st c) -> g_run K pi c m ls = Ok (c', m', outs) ->
  chain K (s_cur (g_st c)) outs (s_cur (g_st c')) /\ sized (g_st c').
Proof.
  induction ls as [|l ls IH]; intros c m c' m' outs SZ H; cbn [g_run] in H.
  - injection H as <- <- <-. split; [constructor|exact SZ].
  - unfold rbind in H. destruct (g_line K pi c m l) as [[c1 m1]|] eqn:E; [|discriminate]. cbn [fst snd] in H.
    destruct (g_run K pi c1 m1 ls) as [[[c2 m2] outs2]|] eqn:E2; [|discriminate]. cbn [fst snd] in H. injection H as <- <- <-.
    destruct (sized_line _ _ _ _ _ SZ E) as (S1 & _). destruct (IH _ _ _ _ _ S1 E2) as (CH & S2). split; [|exact S2].
    destruct (join_lemma _ _ _ _ _ SZ E) as [(A & B)|(A & B & C)].
    + apply chain_skip; [exact A|exact B|now rewrite <- B].
    + apply chain_move; auto.
Qed.

Lemma sized0 : sized (gstate0 K).
Proof. unfold sized. cbn. repeat split; repeat constructor. Qed.

Lemma axis_index l i g : In (l, i, g) axis_letters -> (i < 3)%nat /\ lt_index g = i /\ g <> LtF /\ In (l, g) value_letters /\
  In (l, g) [(cX, LtX); (cY, LtY); (cZ, LtZ); (cI, LtI); (cJ, LtJ); (cK, LtK); (cR, LtR)].
Proof.
  cbn [axis_letters In]. intros [H|[H|[H|[]]]]; injection H as <- <- <-; (split; [lia|]); (split; [reflexivity|]); (split; [discriminate|]);
  unfold value_letters; cbn; auto 10.
Qed.

Lemma to_mm_in (s : gstate) x : in_mm K s x = to_mm K (s_unit s) x.
Proof. reflexivity. Qed.

(** C43 *)
Lemma absolute_lemma c m l c' m' ws ch i g x : line_words K l ws -> sized (g_st c) -> g_line K pi c m l = Ok (c', m') ->
  made_motion c' m' -> s_dist (g_st c') = G90 -> In (ch, i, g) axis_letters -> has_value ws ch x ->
  let s' := g_st c' in
  (~ has ws cG 530 -> coord_at K (s_cur s') i = nadd K (offset K s' (s_coord s') i) (to_mm K (s_unit s') x)) /\
  (has ws cG 530 -> coord_at K (s_cur s') i = nadd K (offset K s' G53 i) (to_mm K (s_unit s') x)).
Proof.
  intros LW SZ H MM DI AX HV. cbv zeta.
  destruct (line_motion c m l c' m' ws LW SZ H) as [(A & _)|(_ & CO & (sP & b & t & KO) & _)]; [contradiction|].
  destruct (axis_index _ _ _ AX) as (Li & Lg & NF & VL & I7).
  destruct (sized_line _ _ _ _ _ SZ H) as (_ & WC).
  assert (LV : letter K (g_st c') g = x).
  { destruct (letters_lemma c m l c' m' ws LW CO SZ H) as (FL & _). destruct (FL ch g I7) as [X|(_ & X)].
    - apply (value_unique ws ch g _ _ (proj2 CO) VL X HV).
    - exfalso. apply X. destruct HV as (w & Iw & Ew & _). exists w. auto. }
  assert (GO : coord_at K (s_cur (g_st c')) i = nadd K (offset K (g_st c') (s_coord sP) i) (to_mm K (s_unit (g_st c')) x)).
  { rewrite (k_cur' _ _ _ _ _ _ _ _ KO). unfold coord_at. fold (nthZ K (map (next_axis K sP) axes) i). rewrite nth_axes by exact Li.
    unfold next_axis. rewrite (k_dist _ _ _ _ _ _ _ _ KO), DI, to_mm_in, (k_unit _ _ _ _ _ _ _ _ KO).
    unfold offset, coord_at, nthZ. rewrite (k_wcs _ _ _ _ _ _ _ _ KO), WC.
    rewrite <- Lg. fold (nthZ K (s_letters sP) (lt_index g)). fold (letter K sP g). rewrite (k_letters _ _ _ _ _ _ _ _ KO g NF), LV. reflexivity. }
  destruct (k_coord _ _ _ _ _ _ _ _ KO) as [(E & N)|(E & N & ND)]; rewrite E in GO; (split; intros X).
  - exact GO.
  - exfalso. destruct N as [N|(N & _)]; [exact (N X)|].
    assert (U : cG = cG /\ 40 = 530) by (apply (group_unique ws MgGroup0); [exact (proj1 CO)|cbn; auto 10|cbn; auto 10|exact N|exact X]).
    destruct U as (_ & U). discriminate U.
  - destruct (X N).
  - exact GO.
Qed.

(** C42 *)
Lemma follows_none {V} (T : list (N * N * V)) (ws : list word) old new : follows T ws old new ->
  (forall l n v, In (l, n, v) T -> ~ has ws l n) -> new = old.
Proof. intros [(l & n & I & H)|(E & _)] N; [destruct (N l n new I H)|exact E]. Qed.

Lemma frame_lemma c m l c' m' ws : line_words K l ws -> sized (g_st c) -> g_line K pi c m l = Ok (c', m') ->
  no_frame_change ws -> consistent ws ->
  s_unit (g_st c') = s_unit (g_st c) /\ s_coord (g_st c') = s_coord (g_st c) /\
  (s_dist (g_st c) = G90 -> s_dist (g_st c') = G90) /\ s_wcs (g_st c') = s_wcs (g_st c).
Proof.
  intros LW SZ H (N53 & N91 & NU & NC) CO.
  destruct (modal_lemma c m l c' m' ws LW CO SZ H) as (_ & ND & _ & DW).
  destruct (sized_line _ _ _ _ _ SZ H) as (_ & WC).
  assert (dwell K ws \/ ~ dwell K ws) as [Dw|Dw].
  { destruct (line_cases c m l c' m' ws LW SZ H) as [(N & _)|(_ & b & c0 & cH & cM & _ & _ & _ & _ & _ & _ & O)]; [contradiction|].
    destruct O; auto. }
  - destruct (DW Dw) as (A & _ & B & C & _). rewrite B. auto.
  - destruct (ND Dw) as (A & _ & B & C & _). split; [exact (follows_none _ _ _ _ A NU)|].
    split; [exact (follows_none _ _ _ _ C NC)|]. split; [|exact WC]. intros E90.
    destruct B as [(l1 & n1 & I & Hs)|(E & _)]; [|congruence].
    cbn in I. destruct I as [I|[I|[]]]; injection I as <- <- I; [congruence|contradiction].
Qed.

Lemma named_or_not (ws : list word) ch : has_letter ws ch \/ ~ has_letter ws ch.
Proof.
  induction ws as [|w ws IH]; [right; intros (w & [] & _)|].
  destruct (N.eq_dec (w_letter w) ch) as [E|E]; [left; exists w; split; [now left|exact E]|].
  destruct IH as [(w' & I & E')|N]; [left; exists w'; split; [now right|exact E']|].
  right. intros (w' & [<-|I] & E'); [contradiction|]. apply N. exists w'. auto.
Qed.

Lemma unnamed_lemma c m l c' m' ws : line_words K l ws -> sized (g_st c) -> g_line K pi c m l = Ok (c', m') ->
  no_frame_change ws -> tracked K (g_st c) ->
  (g_err c' = InvalidFeedrate -> forall ch i g, In (ch, i, g) axis_letters -> ~ has_letter ws ch) ->
  tracked K (g_st c') /\
  forall ch i g, In (ch, i, g) axis_letters -> ~ has_letter ws ch ->
    coord_at K (s_cur (g_st c')) i = coord_at K (s_cur (g_st c)) i.
Proof.
  intros LW SZ H NF TR NE.
  destruct (line_cases c m l c' m' ws LW SZ H) as [(N & E1 & _)|(CO & _)]; [rewrite E1; auto|].
  destruct (frame_lemma c m l c' m' ws LW SZ H NF CO) as (EU & EC & ED & EWC).
  destruct TR as (E90 & TR). specialize (ED E90).
  destruct (letters_lemma c m l c' m' ws LW CO SZ H) as (FL & _).
  assert (SAME : forall ch i g, In (ch, i, g) axis_letters -> ~ has_letter ws ch -> letter K (g_st c') g = letter K (g_st c) g).
  { intros ch i g AX NL. destruct (axis_index _ _ _ AX) as (_ & _ & _ & _ & I7).
    destruct (FL ch g I7) as [(w & Iw & Ew & _)|(E & _)]; [exfalso; apply NL; exists w; auto|exact E]. }
  assert (TGT : forall i g, nadd K (offset K (g_st c') (s_coord (g_st c')) i) (to_mm K (s_unit (g_st c')) (letter K (g_st c) g)) =
                nadd K (offset K (g_st c) (s_coord (g_st c)) i) (to_mm K (s_unit (g_st c)) (letter K (g_st c) g))).
  { intros i g. unfold offset. now rewrite EU, EC, EWC. }
  destruct (line_motion c m l c' m' ws LW SZ H) as [(NM & CUR & _)|(MM & _ & (sP & b & t & KO) & _)].
  - (* no motion: no axis words *)
    assert (NA : forall ch i g, In (ch, i, g) axis_letters -> ~ has_letter ws ch).
    { intros ch i g AX HL.
      destruct (line_cases c m l c' m' ws LW SZ H) as [(N & _)|(_ & b & c0 & cH & cM & C & EB & E1 & E0 & _ & _ & O)]; [contradiction|].
      destruct O as [x c' m' D1 D2 D3 D4 D5 D6|g' c' m' D1 D2 D3 D4 D5 D6 D7|g' s' c' m' D1 D2 D3 D4 D5 D6 D7 D8 D9 D10 D11|c' m' D1 D2 D3 D4 D5 D6 D7 D8 D9|c' m' D1 D2 D3 D4 D5 D6 D7 D8].
      + apply NM. split; [destruct (calcMotion_fields _ _ _ _ _ D4) as (T & _); rewrite T; discriminate|congruence].
      + apply NM. split; [destruct (calcMotion_fields _ _ _ _ _ D4) as (T & _); rewrite T; destruct g'; discriminate|congruence].
      + apply NM. split; [destruct (calcMotion_fields _ _ _ _ _ D6) as (T & _); rewrite T; destruct g'; discriminate|congruence].
      + exact (NE D8 ch i g AX HL).
      + assert (G : gated c0) by (apply counted_gated; rewrite E1; exact C). destruct G as (GA & _).
        rewrite E1 in GA. rewrite (GA ch) in D4; [discriminate| |unfold W; rewrite E1, EB; exact HL].
        cbn in AX. cbn. destruct AX as [AX|[AX|[AX|[]]]]; injection AX as <- _ _; auto. }
    split; [|intros; now rewrite CUR].
    split; [exact ED|]. intros ch i g AX. rewrite CUR, (TR _ _ _ AX). rewrite (SAME _ _ _ AX (NA _ _ _ AX)). symmetry. apply TGT.
  - assert (NG : s_coord sP = s_coord (g_st c')).
    { destruct (k_coord _ _ _ _ _ _ _ _ KO) as [(E & _)|(_ & X & _)]; [exact E|]. destruct NF as (NF & _). contradiction. }
    assert (GO : forall ch i g, In (ch, i, g) axis_letters ->
       coord_at K (s_cur (g_st c')) i = nadd K (offset K (g_st c') (s_coord (g_st c')) i) (to_mm K (s_unit (g_st c')) (letter K (g_st c') g))).
    { intros ch i g AX. destruct (axis_index _ _ _ AX) as (Li & Lg & NFl & _ & _).
      rewrite (k_cur' _ _ _ _ _ _ _ _ KO). unfold coord_at. fold (nthZ K (map (next_axis K sP) axes) i). rewrite nth_axes by exact Li.
      unfold next_axis. rewrite (k_dist _ _ _ _ _ _ _ _ KO), ED, to_mm_in, (k_unit _ _ _ _ _ _ _ _ KO), NG.
      unfold offset, coord_at, nthZ. rewrite (k_wcs _ _ _ _ _ _ _ _ KO), EWC.
      rewrite <- Lg. fold (nthZ K (s_letters sP) (lt_index g)). fold (letter K sP g). rewrite (k_letters _ _ _ _ _ _ _ _ KO g NFl). reflexivity. }
    split; [split; [exact ED|exact GO]|].
    intros ch i g AX NL. rewrite (GO _ _ _ AX), (TR _ _ _ AX), (SAME _ _ _ AX NL). apply TGT.
Qed.

(** C49 *)
Lemma announced_lemma c m l c' m' ws : line_words K l ws -> sized (g_st c) -> g_line K pi c m l = Ok (c', m') ->
  ~ has ws cG 530 -> (g_res c' = OkContextUpdateAndMotion <-> made_motion c' m').
Proof.
  intros LW SZ H N53.
  destruct (line_motion c m l c' m' ws LW SZ H) as [(NM & _ & R)|(MM & _ & _ & [(R & _)|(_ & X & _)])]; [split; intros; contradiction|tauto|contradiction].
Qed.
End P.
