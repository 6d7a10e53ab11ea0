(** When parsing a line has no undefined behaviour. *)
Require Import List Arith NArith ZArith Bool Lia.
From Verif Require Import Base Num MotionModel GcodeModel GcodeSpec GBlockProofs GParseProofs GHeadProofs GStageProofs GMeaningProofs.
Import ListNotations.
Open Scope N_scope.

Section P.
Context {D : Type} (K : num D) (pi : D).
Local Notation word := (@word D).
Local Notation gstate := (@gstate D).
Local Notation gcode := (@gcode D).
Local Notation zero := (nofZ K 0).
Notation W c := (b_words (g_block c)).

Definition no_center (b : @block D) : Prop := hasOffset b = false /\ hasRadius b = false.

Lemma calc_total b (s : gstate) m : no_center b \/ is_helical (sm_type m) = true -> exists r, calcMotion K pi b s m = Ok r.
Proof.
  intros H. unfold calcMotion. cbn beta iota zeta delta [calcNextPosition].
  match goal with |- context [setArcAxisFromPlane ?S ?M] => set (m1 := setArcAxisFromPlane S M) end.
  assert (A : is_helical (sm_type m) = true -> (sm_arc0 m1 < 3 /\ sm_arc1 m1 < 3)%nat).
  { intros HH. unfold m1, setArcAxisFromPlane. cbn [sm_type]. rewrite HH. cbn [s_plane st_next]. destruct (s_plane s); cbn; lia. }
  clearbody m1.
  assert (X : exists m2, calcArcCenterAndRadius K b (st_next (map (next_axis K s) axes) s) m1 = Ok m2).
  { unfold calcArcCenterAndRadius. destruct H as [(-> & ->)|H]; [eauto|]. specialize (A H).
    replace ((sm_arc0 m1 <? 3)%nat && (sm_arc1 m1 <? 3)%nat)%bool with true by (symmetry; rewrite andb_true_iff, !Nat.ltb_lt; exact A).
    destruct (hasOffset b); [eauto|]. destruct (hasRadius b); [|eauto].
    destruct (if nltb K _ zero then _ else _). eauto. }
  destruct X as (m2 & X). rewrite X. cbn [rbind]. eauto.
Qed.

Lemma do_total t (c : gcode) m : no_center (g_block c) \/ is_helical t = true -> exists r, do_motion K pi t c m = Ok r.
Proof.
  intros H. unfold do_motion. destruct (calc_total (g_block c) (g_st c) (sm_with_type t m) H) as (r & E). rewrite E. cbn [rbind]. eauto.
Qed.

Lemma motion_total (c : gcode) m :
  (no_center (g_block c) \/
   (~ has (W c) cG 0 /\ ~ has (W c) cG 10 /\ (has (W c) cG 20 \/ has (W c) cG 30 \/ s_motion (g_st c) = G2 \/ s_motion (g_st c) = G3))) ->
  exists r, parse_motion K pi c m = Ok r.
Proof.
  intros H. unfold parse_motion.
  destruct (search2 (g_block c) cG 0) as [i|] eqn:E0.
  { destruct H as [H|(N & _)]; [|apply search2_has in E0; contradiction].
    destruct (do_total traverse (set_result OkContextUpdateAndMotion ENone (on_state (st_motion G0) c)) m) as (r & E); [left; exact H|].
    rewrite E. cbn [rbind]. eauto. }
  destruct (search2 (g_block c) cG 10) as [i|] eqn:E1.
  { destruct H as [H|(_ & N & _)]; [|apply search2_has in E1; contradiction].
    destruct (nltb K zero _); [|eauto].
    destruct (do_total feedLinear (on_state (st_motion G1) c) m) as (r & E); [left; exact H|].
    rewrite E. cbn [rbind]. eauto. }
  destruct (search2 (g_block c) cG 20) as [i|] eqn:E2.
  { destruct (do_total feedHelicalCW (on_state (st_motion G2) c) m) as (r & E); [right; reflexivity|].
    rewrite E. cbn [rbind]. eauto. }
  destruct (search2 (g_block c) cG 30) as [i|] eqn:E3.
  { destruct (do_total feedHelicalCCW (on_state (st_motion G3) c) m) as (r & E); [right; reflexivity|].
    rewrite E. cbn [rbind]. eauto. }
  destruct (hasAxis (g_block c)); [|eauto].
  set (t := match s_motion (g_st c) with G0 => _ | G1 => _ | G2 => _ | G3 => _ end).
  destruct (do_total t c m) as (r & E).
  { destruct H as [H|(_ & _ & [X|[X|[X|X]]])]; [left; exact H|..].
    - apply search2_none in E2. contradiction.
    - apply search2_none in E3. contradiction.
    - right. unfold t. now rewrite X.
    - right. unfold t. now rewrite X. }
  rewrite E. cbn [rbind]. eauto.
Qed.

Lemma G53_total (c : gcode) m i : no_center (g_block c) -> exists r, parse_G53 K pi c m i = Ok r.
Proof.
  intros H. unfold parse_G53.
  assert (NB : forall f, no_center (g_block (on_state f c))) by (intros; exact H).
  set (c1 := on_state (st_coord G53) c). specialize (NB (st_coord G53)). fold c1 in NB. clearbody c1.
  assert (T : forall t, exists r, do_motion K pi t c1 m = Ok r) by (intros; apply do_total; now left).
  destruct (T traverse) as (r0 & E0). destruct (T feedLinear) as (r1 & E1). rewrite E0, E1.
  destruct (search2 (g_block c1) cG 0); [cbn [rbind]; eauto|].
  destruct (search2 (g_block c1) cG 10); cbn [rbind]; eauto.
Qed.

Lemma dwell_total (c : gcode) m : no_center (g_block c) \/ ~ has (W c) cG 40 ->
  exists r, parse_dwell K pi c m = Ok r /\ match r with inl _ => True | inr cD => g_block cD = g_block c /\ g_st cD = g_st c end.
Proof.
  intros H. unfold parse_dwell. destruct (search2 (g_block c) cG 40) as [i|] eqn:E40.
  - destruct H as [H|H]; [|apply search2_has in E40; contradiction].
    destruct (search1 (g_block c) cP) as [j|].
    + destruct (nleb K zero (word_number K c j)).
      * set (c1 := set_result OkContextUpdateAndMotion _ _).
        assert (H1 : no_center (g_block c1)) by exact H. clearbody c1.
        destruct (do_total pauseAndResume c1 m (or_introl H1)) as (r & E). cbv zeta. rewrite E. cbn [rbind]. eexists. split; [reflexivity|exact I].
      * eexists. split; [reflexivity|]. split; reflexivity.
    + eexists. split; [reflexivity|]. split; reflexivity.
  - eexists. split; [reflexivity|]. split; reflexivity.
Qed.

Lemma rest_total (cD : gcode) m :
  (no_center (g_block cD) \/
   (~ has (W cD) cG 0 /\ ~ has (W cD) cG 10 /\ ~ has (W cD) cG 530 /\
    (has (W cD) cG 20 \/ has (W cD) cG 30 \/ s_motion (g_st cD) = G2 \/ s_motion (g_st cD) = G3))) ->
  exists r, parse_rest K pi cD m = Ok r.
Proof.
  intros H. unfold parse_rest. pose proof (modes_lemma cD) as MO. generalize dependent (parse_modes cD). intros cM MO.
  pose proof (o_keeps _ _ MO) as KM. destruct (hasX_keeps _ _ _ KM) as (_ & YO & YR).
  assert (NC' : no_center (g_block cD) -> no_center (g_block cM)) by (intros X; destruct X; unfold no_center; now rewrite YO, YR).
  assert (HK' : forall n, r_modes cG n = false -> has (W cM) cG n <-> has (W cD) cG n).
  { intros n Rn. apply (has_keeps r_modes); [exact KM|exact Rn]. }
  destruct (search2 (g_block cM) cG 530) as [i|] eqn:E53.
  - apply G53_total. destruct H as [H|(_ & _ & N & _)]; [auto|]. apply search2_has in E53.
    apply HK' in E53; [contradiction|reflexivity].
  - apply motion_total. destruct H as [H|(N0 & N1 & _ & H)]; [left; auto|right].
    rewrite (o_motion _ _ MO).
    pose proof (HK' 0 eq_refl). pose proof (HK' 10 eq_refl). pose proof (HK' 20 eq_refl). pose proof (HK' 30 eq_refl). tauto.
Qed.

Lemma parse_ub (c : gcode) m : counted (g_block c) -> length (s_letters (g_st c)) = 13%nat -> parseBlock K pi c m = UB ->
  exists cH m0, head_ok K c cH /\
    (r <- parse_dwell K pi cH m0 ;; match r with inl out => Ok out | inr c => parse_rest K pi c m0 end) = UB.
Proof.
  intros C L H. rewrite parse_eq in H. cbv zeta in H. set (c0 := set_result EmptyBlock ENone c) in H.
  change (g_block c0) with (g_block c) in H.
  destruct (groupViolation (g_block c)); [discriminate|]. destruct (letterViolation (g_block c)); [discriminate|].
  assert (HH : head_ok K c0 (parse_head K c0)).
  { apply head_lemma; [apply counted_gated; exact C|exact L]. }
  exists (parse_head K c0), (sm_with_type mt_none m). split; [|exact H].
  remember (parse_head K c0) as cH eqn:EH. clear EH H.
  destruct HH; constructor; assumption.
Qed.

Lemma block_total (c : gcode) m : counted (g_block c) -> length (s_letters (g_st c)) = 13%nat ->
  (no_center (g_block c) \/
   (~ has (W c) cG 0 /\ ~ has (W c) cG 10 /\ ~ has (W c) cG 40 /\ ~ has (W c) cG 530 /\
    (has (W c) cG 20 \/ has (W c) cG 30 \/ s_motion (g_st c) = G2 \/ s_motion (g_st c) = G3))) ->
  exists r, parseBlock K pi c m = Ok r.
Proof.
  intros C L H. destruct (parseBlock K pi c m) as [r|] eqn:HP; [eauto|exfalso].
  destruct (parse_ub c m C L HP) as (cH & m0 & HH & HD). clear HP.
  assert (Kp : keeps r_head c cH) by exact (h_keeps _ _ _ HH).
  destruct (hasX_keeps _ _ _ Kp) as (XA & XO & XR).
  assert (NC : no_center (g_block c) -> no_center (g_block cH)) by (intros (A & B); unfold no_center; now rewrite XO, XR).
  assert (HK : forall n, r_head cG n = false -> has (W cH) cG n <-> has (W c) cG n) by (intros n Rn; apply (has_keeps r_head); [exact Kp|exact Rn]).
  assert (HM : s_motion (g_st cH) = s_motion (g_st c)) by exact (h_motion _ _ _ HH).
  destruct (dwell_total cH m0) as (r & E & ED).
  { destruct H as [H|(_ & _ & N & _)]; [left; auto|right; rewrite HK by reflexivity; exact N]. }
  rewrite E in HD. cbn [rbind] in HD. destruct r as [out|cD]; [discriminate|]. destruct ED as (EB & ES).
  destruct (rest_total cD m0) as (r & ER); [|congruence]. rewrite EB, ES, HM.
  pose proof (HK 0 eq_refl). pose proof (HK 10 eq_refl). pose proof (HK 20 eq_refl). pose proof (HK 30 eq_refl). pose proof (HK 530 eq_refl). tauto.
Qed.
End P.
