(** Proofs about gcode.cpp, continued: stop words, the override switch, and the feed
    rate of G1 blocks. *)
Require Import List Arith NArith ZArith Bool Lia ZifyBool ZifyNat ZifyN Permutation.
From Verif Require Import Base Num MotionModel GcodeModel GcodeSpec GcodeStopSpec GText GBlockProofs GParseProofs GHeadProofs GStageProofs GMeaningProofs GLineProofs.
Import ListNotations.
Open Scope N_scope.

Section P.
Context {D : Type} (K : num D) (pi : D).
Local Notation word := (@word D).
Local Notation block := (@block D).
Local Notation gstate := (@gstate D).
Local Notation gcode := (@gcode D).
Local Notation zero := (nofZ K 0).

(** ** Programs: an inserted line *)

(** A line is parsed alike whatever block and result the last one left. *)
Lemma line_again c c1 m m1 l : g_st c1 = g_st c -> sm_with_type mt_none m1 = sm_with_type mt_none m ->
  g_line K pi c1 m1 l = g_line K pi c m l.
Proof.
  intros E1 E2. unfold g_line, g_getBlock. destruct (getBlock K l) as [b|]; [|reflexivity]. cbn [rbind].
  unfold parseBlock. cbn [set_result g_block g_st]. now rewrite E1, E2.
Qed.
Lemma run_app ls1 : forall c m ls2, g_run K pi c m (ls1 ++ ls2) =
  (x <- g_run K pi c m ls1 ;; y <- g_run K pi (fst (fst x)) (snd (fst x)) ls2 ;; Ok (fst y, snd x ++ snd y)).
Proof.
  induction ls1 as [|l r IH]; intros c m ls2; cbn [app g_run].
  - cbn [rbind fst snd app]. destruct (g_run K pi c m ls2) as [[[a b] o]|]; reflexivity.
  - destruct (g_line K pi c m l) as [[c1 m1]|]; [|reflexivity]. cbn [rbind fst snd]. rewrite IH.
    destruct (g_run K pi c1 m1 r) as [[[c2 m2] o]|]; [|reflexivity]. cbn [rbind fst snd].
    destruct (g_run K pi c2 m2 ls2) as [[[c3 m3] o3]|]; reflexivity.
Qed.

Lemma run_again ls c m c1 m1 c' m' outs : g_st c1 = g_st c -> sm_with_type mt_none m1 = sm_with_type mt_none m ->
  g_run K pi c1 m1 ls = Ok (c', m', outs) ->
  exists c2 m2, g_run K pi c m ls = Ok (c2, m2, outs) /\ g_st c2 = g_st c'.
Proof.
  intros E1 E2 H. destruct ls as [|l r]; cbn [g_run] in *.
  - injection H as <- <- <-. eauto.
  - rewrite (line_again c c1 m m1 l E1 E2) in H. rewrite H. eauto.
Qed.

(** ** Stop words *)
Lemma first_none (c : gcode) opts : (forall k, In k (map fst opts) -> search2 (g_block c) (fst k) (snd k) = None) -> first_of c opts = c.
Proof.
  induction opts as [|[[l n] f] opts IH]; intros H; cbn [first_of]; [reflexivity|].
  pose proof (H (l, n) (or_introl eq_refl)) as E. cbn [fst snd] in E. rewrite E. apply IH. intros k I. apply H. right. exact I.
Qed.
Lemma stop_line c m l ws : line_words K l ws -> only_words stop_words ws ->
  exists b, g_line K pi c m l = Ok (mkGC b (g_st c) OkContextUpdateOnly ENone, sm_with_type mt_none m).
Proof.
  intros (b & E & EW) ST. unfold g_line, g_getBlock. rewrite E. cbn [rbind].
  assert (C : counted b) by (apply (counted_line K); exists l; exact E).
  assert (N2 : forall x y, ~ In (x, y) stop_words -> search2 b x y = None).
  { intros x y H. pose proof (search2_spec (mkGC b (g_st c) (g_res c) (g_err c)) x y) as S. cbn [g_block] in S.
    destruct (search2 b x y) as [i|]; [|reflexivity]. destruct S as (w & N & <- & <-). exfalso. apply H, ST.
    unfold W in N. cbn in N. rewrite EW in N. eapply nth_error_In; eauto. }
  assert (N1 : forall x, x <> cM -> search1 b x = None).
  { intros x H. pose proof (search1_spec (mkGC b (g_st c) (g_res c) (g_err c)) x) as S. cbn [g_block] in S.
    destruct (search1 b x) as [i|]; [|reflexivity]. destruct S as (w & N & <-). exfalso.
    unfold W in N. cbn in N. rewrite EW in N. apply nth_error_In, ST in N. apply H. cbn in N.
    destruct N as [N|[N|[N|[N|[N|[]]]]]]; injection N as <- _; reflexivity. }
  assert (CZ : forall p, (forall x y, In (x, y) stop_words -> p x y = false) -> cnt p (b_words b) = 0).
  { intros p H. assert (X : ~ 0 < cnt p (b_words b)); [|lia]. intros P. apply cnt_pos in P. destruct P as (w & I & P).
    unfold tst in P. rewrite H in P; [discriminate|]. apply ST. rewrite EW in I. exact I. }
  destruct C as (L11 & L13 & CG & CL & CT & CA & CO & CR).
  assert (HA : hasAxis b = false). { unfold hasAxis. rewrite CA, CZ; [reflexivity|]. intros x y I. cbn in I. decompose [or] I; try tauto; injection H as <- <- || injection H0 as <- <-; reflexivity. }
  assert (HO : hasOffset b = false). { unfold hasOffset. rewrite CO, CZ; [reflexivity|]. intros x y I. cbn in I. decompose [or] I; try tauto; injection H as <- <- || injection H0 as <- <-; reflexivity. }
  assert (HR : hasRadius b = false). { unfold hasRadius. rewrite CR, CZ; [reflexivity|]. intros x y I. cbn in I. decompose [or] I; try tauto; injection H as <- <- || injection H0 as <- <-; reflexivity. }
  assert (GV : groupViolation b = false).
  { destruct (groupViolation b) eqn:G; [|reflexivity]. apply (group_violation K) in G; [|repeat split; assumption].
    destruct G as (g & a & x & b' & y & c' & EE & P & _). exfalso.
    assert (I : In (w_letter x, w_int x) stop_words) by (apply ST; rewrite <- EW, EE; apply in_or_app; right; left; reflexivity).
    unfold in_group in P. remember (w_letter x, w_int x) as k. clear -P I. cbn in I.
    destruct I as [<-|[<-|[<-|[<-|[<-|[]]]]]]; destruct g; cbn in P; decompose [or] P; discriminate || tauto. }
  assert (LV : letterViolation b = false).
  { destruct (letterViolation b) eqn:G; [|reflexivity]. apply (letter_violation K) in G; [|repeat split; assumption].
    destruct G as (lt & g & IV & a & x & b' & y & c' & EE & P & _). exfalso.
    assert (I : In (w_letter x, w_int x) stop_words) by (apply ST; rewrite <- EW, EE; apply in_or_app; right; left; reflexivity).
    rewrite P in I. cbn in I. assert (lt = cM) by (decompose [or] I; try tauto; injection H as <- _ || injection H0 as <- _; reflexivity).
    subst lt. rewrite H in IV. cbn in IV. decompose [or] IV; discriminate || tauto. }
  unfold parseBlock. cbv zeta. change (set_result EmptyBlock ENone (mkGC b (g_st c) (g_res c) (g_err c))) with (mkGC b (g_st c) EmptyBlock ENone).
  cbn [g_block]. rewrite GV, LV. set (c0 := mkGC b (g_st c) EmptyBlock ENone).
  assert (HD : exists r e, parse_head K c0 = mkGC b (g_st c) r e).
  { unfold parse_head, getAxisOffsetRadiusWords. cbv zeta. change (g_block c0) with b. rewrite HA. cbv iota.
    change (g_block c0) with b. rewrite HO. cbv iota. change (g_block c0) with b. rewrite HR. cbv iota.
    unfold getLineNumberWord. change (g_block c0) with b. rewrite (N1 cN) by discriminate.
    unfold setFeedrateMode. change (g_block c0) with b. rewrite (N2 cG 930), (N2 cG 940) by (cbn; intuition discriminate).
    assert (X : exists r e, setFeedrateValue K c0 = mkGC b (g_st c) r e).
    { unfold setFeedrateValue. change (g_block c0) with b. destruct (hasWords b); [|unfold c0; eauto]. rewrite (N1 cF) by discriminate.
      destruct (s_feed _); unfold set_result, c0; cbn; eauto. }
    destruct X as (r & e & ->). exists r, e.
    unfold setSpindleSpeed. cbn [g_block]. rewrite (N1 cS) by discriminate.
    unfold setSpindleMode, setCoolantMode, setOverrideMode. cbn [first_of g_block].
    rewrite (N2 cM 30), (N2 cM 40), (N2 cM 50) by (cbn; intuition discriminate). cbn [first_of g_block].
    rewrite (N2 cM 70) by (cbn; intuition discriminate). cbn [first_of g_block].
    rewrite (N2 cM 80) by (cbn; intuition discriminate). cbn [first_of g_block].
    rewrite (N2 cM 90) by (cbn; intuition discriminate). cbn [first_of g_block].
    rewrite (N2 cM 480), (N2 cM 490) by (cbn; intuition discriminate). reflexivity. }
  destruct HD as (r & e & ->). unfold parse_dwell. cbn [g_block]. rewrite (N2 cG 40) by (cbn; intuition discriminate). cbn [rbind].
  assert (MD : parse_modes (mkGC b (g_st c) r e) = mkGC b (g_st c) r e).
  { unfold parse_modes, setArcPlane, setUnitsMode, setWCSMode, setdistanceMode.
    assert (F : forall opts, (forall k, In k (map fst opts) -> fst k = cG) -> first_of (mkGC b (g_st c) r e) opts = mkGC b (g_st c) r e).
    { intros opts H. apply first_none. intros [x y] I. cbn [g_block fst snd]. apply N2. pose proof (H _ I) as X. cbn in X. subst x.
      cbn. intuition discriminate. }
    rewrite !F by (cbn; intros k I; decompose [or] I; try tauto; subst; reflexivity). cbn [g_block].
    rewrite N2 by (cbn; intuition discriminate). reflexivity. }
  rewrite MD. cbn [g_block]. rewrite (N2 cG 530) by (cbn; intuition discriminate).
  unfold parse_motion. cbn [g_block]. rewrite (N2 cG 0), (N2 cG 10), (N2 cG 20), (N2 cG 30) by (cbn; intuition discriminate).
  rewrite HA. unfold parse_tail. cbn [g_block]. destruct (hasWords b); eexists; reflexivity.
Qed.

Lemma none_motion (c : gcode) m : is_motion (mkGC (g_block c) (g_st c) OkContextUpdateOnly ENone, sm_with_type mt_none m) = false.
Proof. reflexivity. Qed.

(** A line that leaves the state and makes no motion can be left out. *)
Lemma without_line c m ls1 l ls2 :
  (forall c m, exists b, g_line K pi c m l = Ok (mkGC b (g_st c) OkContextUpdateOnly ENone, sm_with_type mt_none m)) ->
  forall c' m' outs, g_run K pi c m (ls1 ++ l :: ls2) = Ok (c', m', outs) ->
  exists c2 m2 outs2, g_run K pi c m (ls1 ++ ls2) = Ok (c2, m2, outs2) /\ motions_of outs2 = motions_of outs /\ g_st c2 = g_st c'.
Proof.
  intros HL c' m' outs H. rewrite run_app in H. rewrite run_app.
  destruct (g_run K pi c m ls1) as [[[c1 m1] o1]|]; [|discriminate]. cbn [rbind fst snd] in *. cbn [g_run] in H.
  destruct (HL c1 m1) as (b & E). rewrite E in H. cbn [rbind fst snd] in H.
  destruct (g_run K pi _ (sm_with_type mt_none m1) ls2) as [[[c3 m3] o3]|] eqn:R; [|discriminate]. cbn [rbind fst snd] in H.
  injection H as <- <- <-.
  destruct (run_again ls2 c1 m1 (mkGC b (g_st c1) OkContextUpdateOnly ENone) (sm_with_type mt_none m1) c3 m3 o3 eq_refl eq_refl R) as (c2 & m2 & E2 & ES).
  exists c2, m2, (o1 ++ o3). rewrite E2. cbn [rbind fst snd]. split; [reflexivity|]. split; [|exact ES].
  unfold motions_of. rewrite !filter_app. reflexivity.
Qed.

(** ** The override switch *)
Local Notation ov v c := (@on_state D (st_over v) c).


Lemma ov_first opts : (forall l n f, In (l, n, f) opts -> forall v s, exists v', f (st_over v s) = st_over v' (f s)) ->
  forall v c, exists v', first_of (ov v c) opts = ov v' (first_of c opts).
Proof.
  induction opts as [|[[l n] f] opts IH]; intros H v c; cbn [first_of]; [exists v; reflexivity|].
  change (g_block (ov v c)) with (g_block c). destruct (search2 (g_block c) l n).
  - destruct (H l n f (or_introl eq_refl) v (g_st c)) as (v' & E). exists v'. unfold g_remove, on_block, on_state. cbn. now rewrite E.
  - apply IH. intros. eapply H. right. eassumption.
Qed.
Ltac fo := apply ov_first; let I := fresh in intros ? ? ? I; cbn [In] in I;
  repeat (destruct I as [I|I]; [injection I as <- <- <-; intros ? s; eexists; destruct s; reflexivity|]); destruct I.
Lemma ov_letter ch l v c : get_letter K ch l (ov v c) = ov v (get_letter K ch l c).
Proof. unfold get_letter. change (g_block (ov v c)) with (g_block c). destruct (search1 (g_block c) ch); reflexivity. Qed.
Lemma ov_if (p : block -> bool) (f : gcode -> gcode) : (forall v c, f (ov v c) = ov v (f c)) ->
  forall v c, (if p (g_block (ov v c)) then f (ov v c) else ov v c) = ov v (if p (g_block c) then f c else c).
Proof. intros H v c. change (g_block (ov v c)) with (g_block c). destruct (p (g_block c)); [apply H|reflexivity]. Qed.
Lemma ov_axis v c : getAxisOffsetRadiusWords K (ov v c) = ov v (getAxisOffsetRadiusWords K c).
Proof.
  unfold getAxisOffsetRadiusWords. cbv zeta.
  rewrite (ov_if hasAxis (fun c => get_letter K cZ LtZ (get_letter K cY LtY (get_letter K cX LtX c)))) by (intros; now rewrite !ov_letter).
  rewrite (ov_if hasOffset (fun c => get_letter K cK LtK (get_letter K cJ LtJ (get_letter K cI LtI c)))) by (intros; now rewrite !ov_letter).
  apply (ov_if hasRadius (get_letter K cR LtR)). intros. apply ov_letter.
Qed.
Lemma ov_line v c : getLineNumberWord K (ov v c) = ov v (getLineNumberWord K c).
Proof.
  unfold getLineNumberWord. change (g_block (ov v c)) with (g_block c). destruct (search1 (g_block c) cN) as [[|]|]; try reflexivity.
  change (word_number K (ov v c) 0) with (word_number K c 0). destruct (nleb K zero _); reflexivity.
Qed.
Lemma ov_feedmode v c : setFeedrateMode K (ov v c) = ov v (setFeedrateMode K c).
Proof. unfold setFeedrateMode. change (g_block (ov v c)) with (g_block c). destruct (search2 _ cG 930); [reflexivity|]. destruct (search2 _ cG 940); reflexivity. Qed.
Lemma ov_feedvalue v c : setFeedrateValue K (ov v c) = ov v (setFeedrateValue K c).
Proof.
  unfold setFeedrateValue. change (g_block (ov v c)) with (g_block c). destruct (hasWords _); [|reflexivity]. destruct (search1 _ cF) as [i|].
  - change (word_number K (ov v c) i) with (word_number K c i). destruct (nltb K zero _); reflexivity.
  - change (s_feed (g_st (ov v c))) with (s_feed (g_st c)). destruct (s_feed _); reflexivity.
Qed.
Lemma ov_spindle v c : setSpindleSpeed K (ov v c) = ov v (setSpindleSpeed K c).
Proof.
  unfold setSpindleSpeed. change (g_block (ov v c)) with (g_block c). destruct (search1 _ cS) as [i|]; [|reflexivity].
  change (word_number K (ov v c) i) with (word_number K c i). destruct (nleb K zero _); reflexivity.
Qed.
Lemma ov_head v c : exists v', parse_head K (ov v c) = ov v' (parse_head K c).
Proof.
  unfold parse_head. rewrite ov_axis, ov_line, ov_feedmode, ov_feedvalue, ov_spindle. set (c1 := setSpindleSpeed K _). clearbody c1.
  assert (A : forall v c, exists v', setSpindleMode (ov v c) = ov v' (setSpindleMode c)) by (intros; fo).
  assert (B : forall v (c : gcode), exists v', setCoolantMode (ov v c) = ov v' (setCoolantMode c)).
  { intros w x. unfold setCoolantMode. cbv zeta.
    assert (B1 : forall v c, exists v', first_of (ov v c) [(cM, 70, st_flood FloodM7)] = ov v' (@first_of D c [(cM, 70, st_flood FloodM7)])) by (intros; fo).
    assert (B2 : forall v c, exists v', first_of (ov v c) [(cM, 80, st_mist MistM8)] = ov v' (@first_of D c [(cM, 80, st_mist MistM8)])) by (intros; fo).
    destruct (B1 w x) as (v1 & ->). destruct (B2 v1 (first_of x [(cM, 70, st_flood FloodM7)])) as (v2 & ->). fo. }
  assert (C : forall v (c : gcode), exists v', setOverrideMode (ov v c) = ov v' (setOverrideMode c)) by (intros; fo).
  destruct (A v c1) as (v1 & ->). destruct (B v1 (setSpindleMode c1)) as (v2 & ->). apply C.
Qed.
Lemma ov_modes v c : exists v', parse_modes (ov v c) = ov v' (@parse_modes D c).
Proof.
  unfold parse_modes. cbv zeta.
  assert (A : forall v (c : gcode), exists v', setArcPlane (ov v c) = ov v' (setArcPlane c)) by (intros; fo).
  assert (B : forall v (c : gcode), exists v', setUnitsMode (ov v c) = ov v' (setUnitsMode c)) by (intros; fo).
  assert (C : forall v (c : gcode), exists v', setWCSMode (ov v c) = ov v' (setWCSMode c)) by (intros; fo).
  assert (E : forall v (c : gcode), exists v', setdistanceMode (ov v c) = ov v' (setdistanceMode c)) by (intros; fo).
  destruct (A v c) as (v1 & ->). destruct (B v1 (setArcPlane c)) as (v2 & ->). destruct (C v2 (setUnitsMode (setArcPlane c))) as (v3 & ->).
  destruct (E v3 (setWCSMode (setUnitsMode (setArcPlane c)))) as (v4 & ->). exists v4. set (c1 := setdistanceMode _).
  change (g_block (ov v4 c1)) with (g_block c1). destruct (search2 (g_block c1) cG 100); [|reflexivity].
  destruct (search2 (g_block c1) cL 20), (search2 (g_block c1) cL 200), (search1 (g_block c1) cP); reflexivity.
Qed.
Lemma ov_calc b v s m : calcMotion K pi b (st_over v s) m = (x <- calcMotion K pi b s m ;; Ok (st_over v (fst x), snd x)).
Proof.
  unfold calcMotion.
  replace (calcNextPosition K (st_over v s) m) with (st_over v (fst (calcNextPosition K s m)), snd (calcNextPosition K s m)) by reflexivity.
  destruct (calcNextPosition K s m) as [s1 m1]. cbn [fst snd]. cbv zeta.
  replace (setArcAxisFromPlane (st_over v s1) m1) with (setArcAxisFromPlane s1 m1) by reflexivity.
  replace (calcArcCenterAndRadius K b (st_over v s1) (setArcAxisFromPlane s1 m1)) with (calcArcCenterAndRadius K b s1 (setArcAxisFromPlane s1 m1)) by reflexivity.
  destruct (calcArcCenterAndRadius K b s1 (setArcAxisFromPlane s1 m1)) as [m2|]; [|reflexivity]. cbn [rbind fst snd].
  replace (calcArcAngles K pi (st_over v s1) m2) with (calcArcAngles K pi s1 m2) by reflexivity. set (m3 := calcTrajectoryLength K _). clearbody m3.
  replace (calcSpeedAndOrDuration K (st_over v s1) m3) with (calcSpeedAndOrDuration K s1 m3) by reflexivity.
  set (m4 := calcSpeedAndOrDuration K s1 m3). clearbody m4. reflexivity.
Qed.
Lemma ov_motion t v c m : do_motion K pi t (ov v c) m = (x <- do_motion K pi t c m ;; Ok (ov v (fst x), snd x)).
Proof.
  unfold do_motion. change (g_block (ov v c)) with (g_block c). change (g_st (ov v c)) with (st_over v (g_st c)). rewrite ov_calc.
  destruct (calcMotion K pi (g_block c) (g_st c) (sm_with_type t m)) as [[s1 m1]|]; reflexivity.
Qed.
Lemma ov_st_motion g v c : on_state (st_motion g) (ov v c) = ov v (@on_state D (st_motion g) c).
Proof. reflexivity. Qed.
Lemma ov_parse_motion v c m : parse_motion K pi (ov v c) m = (x <- parse_motion K pi c m ;; Ok (ov v (fst x), snd x)).
Proof.
  unfold parse_motion. change (g_block (ov v c)) with (g_block c).
  destruct (search2 (g_block c) cG 0) as [i|].
  { cbv zeta. rewrite ov_st_motion. change (set_result ?a ?b (ov v ?c)) with (ov v (set_result a b c)). rewrite ov_motion.
    destruct (do_motion K pi _ _ m) as [[c1 m1]|]; reflexivity. }
  destruct (search2 (g_block c) cG 10) as [i|].
  { cbv zeta. rewrite ov_st_motion. change (letter K (g_st (ov v ?x)) LtF) with (letter K (g_st x) LtF).
    destruct (nltb K zero _); [|reflexivity]. rewrite ov_motion.
    destruct (do_motion K pi _ _ m) as [[c1 m1]|]; [|reflexivity]. cbn [rbind fst snd].
    change (g_remove i (ov v c1)) with (ov v (g_remove i c1)). change (s_feed (g_st (ov v ?x))) with (s_feed (g_st x)).
    destruct (s_feed (g_st (g_remove i c1))); reflexivity. }
  destruct (search2 (g_block c) cG 20) as [i|].
  { cbv zeta. rewrite ov_st_motion, ov_motion. destruct (do_motion K pi _ _ m) as [[c1 m1]|]; reflexivity. }
  destruct (search2 (g_block c) cG 30) as [i|].
  { cbv zeta. rewrite ov_st_motion, ov_motion. destruct (do_motion K pi _ _ m) as [[c1 m1]|]; reflexivity. }
  destruct (hasAxis (g_block c)).
  - cbv zeta. rewrite ov_motion. change (s_motion (g_st (ov v c))) with (s_motion (g_st c)).
    destruct (do_motion K pi _ _ m) as [[c1 m1]|]; reflexivity.
  - unfold parse_tail. change (g_block (ov v c)) with (g_block c). destruct (hasWords (g_block c)); reflexivity.
Qed.
Lemma ov_G53 v c m i : parse_G53 K pi (ov v c) m i = (x <- parse_G53 K pi c m i ;; Ok (ov v (fst x), snd x)).
Proof.
  unfold parse_G53. cbv zeta. change (s_coord (g_st (ov v c))) with (s_coord (g_st c)).
  change (on_state (st_coord G53) (ov v c)) with (ov v (on_state (st_coord G53) c)). set (c1 := on_state (st_coord G53) c).
  change (g_block (ov v c1)) with (g_block c1).
  assert (T : forall v (c : gcode), parse_tail (ov v c) = ov v (parse_tail c)).
  { intros w x. unfold parse_tail. change (g_block (ov w x)) with (g_block x). destruct (hasWords (g_block x)); reflexivity. }
  destruct (search2 (g_block c1) cG 0); [|destruct (search2 (g_block c1) cG 10)]; rewrite ov_motion;
  destruct (do_motion K pi _ c1 m) as [[c2 m2]|]; try reflexivity; cbn [rbind fst snd]; rewrite <- T; reflexivity.
Qed.
Lemma ov_dwell v c m : parse_dwell K pi (ov v c) m =
  (x <- parse_dwell K pi c m ;; Ok (match x with inl o => inl (ov v (fst o), snd o) | inr c => inr (ov v c) end)).
Proof.
  unfold parse_dwell. change (g_block (ov v c)) with (g_block c). destruct (search2 _ cG 40) as [i|]; [|reflexivity].
  destruct (search1 _ cP) as [j|]; [|reflexivity]. cbv zeta. change (word_number K (ov v c) j) with (word_number K c j).
  destruct (nleb K zero _); [|reflexivity].
  change (on_state (st_letter LtP ?x) (ov v c)) with (ov v (on_state (st_letter LtP x) c)).
  change (set_result ?a (g_err (ov v ?x)) (ov v ?x)) with (ov v (set_result a (g_err x) x)). rewrite ov_motion.
  destruct (do_motion K pi _ _ m) as [[c1 m1]|]; reflexivity.
Qed.
Lemma ov_parse v c m : exists v', parseBlock K pi (ov v c) m = (x <- parseBlock K pi c m ;; Ok (ov v' (fst x), snd x)).
Proof.
  unfold parseBlock. cbv zeta. change (set_result EmptyBlock ENone (ov v c)) with (ov v (set_result EmptyBlock ENone c)).
  set (c1 := set_result EmptyBlock ENone c). set (m1 := sm_with_type mt_none m). change (g_block (ov v c1)) with (g_block c1).
  destruct (groupViolation _); [exists v; reflexivity|]. destruct (letterViolation _); [exists v; reflexivity|].
  destruct (ov_head v c1) as (v1 & ->). rewrite ov_dwell. destruct (parse_dwell K pi (parse_head K c1) m1) as [[[c2 m2]|c2]|]; cbn [rbind fst snd];
  [exists v1; reflexivity| |exists v1; reflexivity].
  destruct (ov_modes v1 c2) as (v2 & ->). exists v2. change (g_block (ov v2 ?x)) with (g_block x).
  destruct (search2 _ cG 530); [apply ov_G53|apply ov_parse_motion].
Qed.
Lemma ov_gline v c m l : exists v', g_line K pi (ov v c) m l = (x <- g_line K pi c m l ;; Ok (ov v' (fst x), snd x)).
Proof.
  unfold g_line, g_getBlock. destruct (getBlock K l) as [b|]; [|exists v; reflexivity]. cbn [rbind].
  apply (ov_parse v (mkGC b (g_st c) (g_res c) (g_err c)) m).
Qed.
Lemma ov_run ls : forall v c m, match g_run K pi c m ls with
  | Ok (c', m', outs) => exists c2 outs2, g_run K pi (ov v c) m ls = Ok (c2, m', outs2) /\
      motions_of outs2 = motions_of outs /\ exists v', c2 = ov v' c'
  | UB => g_run K pi (ov v c) m ls = UB end.
Proof.
  induction ls as [|l r IH]; intros v c m; cbn [g_run].
  - exists (ov v c), []. split; [reflexivity|]. split; [reflexivity|]. exists v. reflexivity.
  - destruct (ov_gline v c m l) as (v1 & ->). destruct (g_line K pi c m l) as [[c1 m1]|]; [|reflexivity]. cbn [rbind fst snd].
    specialize (IH v1 c1 m1). destruct (g_run K pi c1 m1 r) as [[[c2 m2] o]|].
    + destruct IH as (c3 & o3 & -> & E & X). cbn [rbind fst snd]. exists c3, ((ov v1 c1, m1) :: o3). split; [reflexivity|]. split; [|exact X].
      unfold motions_of in *. cbn [filter map]. change (is_motion (ov v1 c1, m1)) with (is_motion (c1, m1)).
      destruct (is_motion (c1, m1)); cbn [map snd]; now rewrite E.
    + rewrite IH. reflexivity.
Qed.

(** A line with nothing but M48 or M49. *)
Lemma switch_line c m l w : line_words K l [w] -> w_letter w = cM -> w_int w = 480 \/ w_int w = 490 ->
  exists b v, g_line K pi c m l = Ok (mkGC b (st_over v (g_st c)) OkContextUpdateOnly ENone, sm_with_type mt_none m).
Proof.
  intros (b & E & EW) EL EI. unfold g_line, g_getBlock. rewrite E. cbn [rbind].
  assert (C : counted b) by (apply (counted_line K); exists l; exact E).
  destruct C as (L11 & L13 & CG & CL & CT & CA & CO & CR).
  assert (WD : exists n, w = mkW cM (w_number w) n /\ (n = 480 \/ n = 490)) by (exists (w_int w); destruct w; cbn in *; subst; auto).
  destruct WD as (n & EWW & EN). clear EL EI. set (d := w_number w) in *. clearbody d. subst w.
  assert (HA : hasAxis b = false) by (unfold hasAxis; rewrite CA, EW; destruct EN as [-> | ->]; reflexivity).
  assert (HO : hasOffset b = false) by (unfold hasOffset; rewrite CO, EW; destruct EN as [-> | ->]; reflexivity).
  assert (HR : hasRadius b = false) by (unfold hasRadius; rewrite CR, EW; destruct EN as [-> | ->]; reflexivity).
  assert (NT : forall P : word -> Prop, ~ two_of P (b_words b)).
  { intros P (x & y & z & u & t & EE & _). rewrite EW in EE. apply (f_equal (@length _)) in EE. rewrite !app_length in EE. cbn in EE. rewrite app_length in EE. cbn in EE. lia. }
  assert (CC : counted b) by (repeat split; assumption).
  assert (GV : groupViolation b = false).
  { destruct (groupViolation b) eqn:G; [|reflexivity]. apply (group_violation K _ CC) in G. destruct G as (g & X). exfalso. exact (NT _ X). }
  assert (LV : letterViolation b = false).
  { destruct (letterViolation b) eqn:G; [|reflexivity]. apply (letter_violation K _ CC) in G. destruct G as (lt & g & _ & X). exfalso. exact (NT _ X). }
  assert (N2 : forall bw x y, b_words bw = [] \/ b_words bw = [mkW cM d n] -> (x, y) <> (cM, n) -> search2 bw x y = None).
  { intros bw x y EB NE. unfold search2. destruct EB as [-> | ->]; [reflexivity|]. cbn [search_from w_letter w_int].
    destruct (cM =? x) eqn:E1; [|reflexivity]. destruct (n =? y) eqn:E2; [|reflexivity].
    apply N.eqb_eq in E1, E2. congruence. }
  assert (N1 : forall x, x <> cM -> search1 b x = None).
  { intros x NE. unfold search1. rewrite EW. cbn [search_from w_letter]. destruct (cM =? x) eqn:E1; [|reflexivity].
    apply N.eqb_eq in E1. congruence. }
  assert (NE : forall x y, In (x, y) [(cG, 930); (cG, 940); (cM, 30); (cM, 40); (cM, 50); (cM, 70); (cM, 80); (cM, 90); (cG, 40); (cG, 170); (cG, 180);
    (cG, 190); (cG, 200); (cG, 210); (cG, 540); (cG, 550); (cG, 560); (cG, 570); (cG, 580); (cG, 590); (cG, 591); (cG, 592); (cG, 593); (cG, 900); (cG, 910);
    (cG, 100); (cG, 530); (cG, 0); (cG, 10); (cG, 20); (cG, 30)] -> (x, y) <> (cM, n)).
  { intros x y I X. rewrite X in I. destruct EN as [-> | ->]; cbn in I; decompose [or] I; discriminate || tauto. }
  unfold parseBlock. cbv zeta. change (set_result EmptyBlock ENone (mkGC b (g_st c) (g_res c) (g_err c))) with (mkGC b (g_st c) EmptyBlock ENone).
  cbn [g_block]. rewrite GV, LV. set (c0 := mkGC b (g_st c) EmptyBlock ENone).
  assert (HD : exists v b' r e, parse_head K c0 = mkGC b' (st_over v (g_st c)) r e /\ (b_words b' = [] \/ b_words b' = [mkW cM d n]) /\ hasAxis b' = false).
  { unfold parse_head, getAxisOffsetRadiusWords. cbv zeta. change (g_block c0) with b. rewrite HA. cbv iota.
    change (g_block c0) with b. rewrite HO. cbv iota. change (g_block c0) with b. rewrite HR. cbv iota.
    unfold getLineNumberWord. change (g_block c0) with b. rewrite (N1 cN) by discriminate.
    unfold setFeedrateMode. change (g_block c0) with b. rewrite (N2 b cG 930), (N2 b cG 940) by (auto; apply NE; cbn; tauto).
    assert (X : exists r e, setFeedrateValue K c0 = mkGC b (g_st c) r e).
    { unfold setFeedrateValue. change (g_block c0) with b. destruct (hasWords b); [|unfold c0; eauto]. rewrite (N1 cF) by discriminate.
      destruct (s_feed _); unfold set_result, c0; cbn; eauto. }
    destruct X as (r & e & ->).
    unfold setSpindleSpeed. cbn [g_block]. rewrite (N1 cS) by discriminate.
    unfold setSpindleMode, setCoolantMode, setOverrideMode. cbn [first_of g_block].
    rewrite (N2 b cM 30), (N2 b cM 40), (N2 b cM 50) by (auto; apply NE; cbn; tauto). cbn [first_of g_block].
    rewrite (N2 b cM 70) by (auto; apply NE; cbn; tauto). cbn [first_of g_block].
    rewrite (N2 b cM 80) by (auto; apply NE; cbn; tauto). cbn [first_of g_block].
    rewrite (N2 b cM 90) by (auto; apply NE; cbn; tauto). cbn [first_of g_block].
    destruct (search2 b cM 480) as [i|] eqn:E1.
    - exists M48, (removeWord b i), r, e. split; [reflexivity|]. split; [|exact HA]. cbn [removeWord with_words b_words]. rewrite EW. destruct i; [left|right]; [reflexivity|].
      reflexivity.
    - destruct (search2 b cM 490) as [i|] eqn:E2.
      + exists M49, (removeWord b i), r, e. split; [reflexivity|]. split; [|exact HA]. cbn [removeWord with_words b_words]. rewrite EW. destruct i; [left|right]; [reflexivity|].
        reflexivity.
      + exists (s_over (g_st c)), b, r, e. split; [destruct (g_st c); reflexivity|]. auto. }
  destruct HD as (v & b' & r & e & -> & EB & HA'). unfold parse_dwell. cbn [g_block]. rewrite (N2 b' cG 40) by (auto; apply NE; cbn; tauto). cbn [rbind].
  assert (MD : parse_modes (mkGC b' (st_over v (g_st c)) r e) = mkGC b' (st_over v (g_st c)) r e).
  { unfold parse_modes, setArcPlane, setUnitsMode, setWCSMode, setdistanceMode.
    assert (F : forall opts, (forall k, In k (map fst opts) -> fst k = cG) -> first_of (mkGC b' (st_over v (g_st c)) r e) opts = mkGC b' (st_over v (g_st c)) r e).
    { intros opts H. apply first_none. intros [x y] I. cbn [g_block fst snd]. apply N2; [exact EB|]. pose proof (H _ I) as X. cbn in X. subst x. discriminate. }
    rewrite !F by (cbn; intros k I; decompose [or] I; try tauto; subst; reflexivity). cbn [g_block].
    rewrite N2 by (auto; apply NE; cbn; tauto). reflexivity. }
  rewrite MD. cbn [g_block]. rewrite (N2 b' cG 530) by (auto; apply NE; cbn; tauto).
  unfold parse_motion. cbn [g_block]. rewrite (N2 b' cG 0), (N2 b' cG 10), (N2 b' cG 20), (N2 b' cG 30) by (auto; apply NE; cbn; tauto).
  rewrite HA'. exists (if hasWords b' then with_words b' [] else b'), v. unfold parse_tail. cbn [g_block]. destruct (hasWords b'); reflexivity.
Qed.

Lemma without_switch c m ls1 l ls2 w : line_words K l [w] -> w_letter w = cM -> w_int w = 480 \/ w_int w = 490 ->
  forall c' m' outs, g_run K pi c m (ls1 ++ ls2) = Ok (c', m', outs) ->
  exists c2 m2 outs2, g_run K pi c m (ls1 ++ l :: ls2) = Ok (c2, m2, outs2) /\ motions_of outs2 = motions_of outs.
Proof.
  intros LW EL EI c' m' outs H. rewrite run_app in H. rewrite run_app.
  destruct (g_run K pi c m ls1) as [[[c1 m1] o1]|]; [|discriminate]. cbn [rbind fst snd] in *. cbn [g_run].
  destruct (switch_line c1 m1 l w LW EL EI) as (b & v & ->). cbn [rbind fst snd].
  pose proof (ov_run ls2 v c1 m1) as R. destruct (g_run K pi c1 m1 ls2) as [[[c3 m3] o3]|]; [|discriminate]. cbn [rbind fst snd] in H.
  injection H as <- <- <-. destruct R as (c4 & o4 & R & EM & _).
  destruct (run_again ls2 (mkGC b (st_over v (g_st c1)) OkContextUpdateOnly ENone) (sm_with_type mt_none m1) (ov v c1) m1 c4 m3 o4 eq_refl eq_refl R) as (c5 & m5 & E5 & _).
  rewrite E5. cbn [rbind fst snd]. eexists c5, m5, _. split; [reflexivity|].
  unfold motions_of in *. rewrite !filter_app, !map_app. cbn [filter]. change (is_motion (mkGC b (st_over v (g_st c1)) OkContextUpdateOnly ENone, sm_with_type mt_none m1)) with false.
  cbn [map]. now rewrite EM.
Qed.

(** ** The feed rate of G1 blocks *)
Lemma g1_feed c m l c' m' ws : nltb K zero zero = false -> line_words K l ws -> sized (g_st c) -> g_line K pi c m l = Ok (c', m') ->
  has ws cG 10 -> ~ dwell K ws -> ~ has ws cG 530 -> made_motion c' m' ->
  (exists f, active_feed K ws (letter K (g_st c) LtF) f /\ nltb K zero f = true) \/
  (exists x, has_value ws cF x /\ nltb K zero x = false) /\ nltb K zero (letter K (g_st c) LtF) = true.
Proof.
  intros Z LW SZ H H1 ND N53 MM.
  destruct (line_motion K pi c m l c' m' ws LW SZ H) as [(A & _)|(_ & CO & (sP & b & t & KO) & _)]; [contradiction|].
  pose proof (k_G1 _ _ _ _ _ _ _ _ _ _ KO H1 ND N53) as P.
  destruct (k_F _ _ _ _ _ _ _ _ _ _ KO) as [A|([(_ & E)|(NM & E)] & B)].
  - left. exists (letter K sP LtF). split; [left; exact A|exact P].
  - rewrite E in P. congruence.
  - rewrite E in P. destruct B as [B|B]; [|right; auto]. left. exists (letter K (g_st c) LtF). split; [|exact P]. right. auto.
Qed.
(** In inverse time mode a G1 block uses up the feed rate. *)
Lemma g1_uses_up c m l c' m' ws : line_words K l ws -> sized (g_st c) -> g_line K pi c m l = Ok (c', m') ->
  has ws cG 10 -> ~ dwell K ws -> ~ has ws cG 530 -> made_motion c' m' -> s_feed (g_st c') = G93 -> letter K (g_st c') LtF = zero.
Proof.
  intros LW SZ H H1 ND N53 MM F93.
  destruct (line_cases K pi c m l c' m' ws LW SZ H) as [(_ & _ & X & _)|(CO & b & c0 & cH & cM & _ & _ & _ & E0 & HH & HM & O)].
  { destruct MM as (_ & Y). contradiction. }
  destruct O as [x c1 m1 D1 _ _ _ _ _|g1 c1 m1 _ D2 _ _ _ _|g1 s1 c1 m1 _ _ D3 _ _ CM D7 D8 D9 R|c1 m1 _ _ _ _ _ _ E1 E2|c1 m1 _ _ D3 _ _ _ _ _]; try contradiction.
  - destruct CO as (NG & _).
    assert (G : g1 = G1).
    { destruct D3 as [(l1 & n1 & I & Hs)|(_ & Hs)]; [|exfalso; apply (Hs cG 10 G1); [cbn; auto|exact H1]].
      cbn in I. destruct I as [I|[I|[I|[I|[]]]]]; injection I as <- <- <-; auto; exfalso;
      [pose proof (group_unique ws MgMotion cG 10 cG 0 NG) as U|pose proof (group_unique ws MgMotion cG 10 cG 20 NG) as U|pose proof (group_unique ws MgMotion cG 10 cG 30 NG) as U];
      destruct U as (_ & U); cbn; auto; discriminate U. }
    subst g1. assert (FM : s_feed (g_st cM) = G93).
    { rewrite D9 in F93. destruct D7 as [E7|(E7 & _)]; rewrite E7 in F93; exact F93. }
    rewrite D9, (D8 H1 eq_refl FM). apply letter_st_eq. cbn. rewrite (o_letters _ _ HM), (h_len _ _ _ HH), E0. exact (proj1 SZ).
  - destruct MM as (_ & Y). contradiction.
  - exfalso. eapply D3; [|exact H1]. right. left. reflexivity.
Qed.
(** So the next G1 block needs its own. *)
Lemma g1_again c m l1 ws1 c1 m1 l2 ws2 c2 m2 : nltb K zero zero = false -> sized (g_st c) ->
  line_words K l1 ws1 -> g_line K pi c m l1 = Ok (c1, m1) -> has ws1 cG 10 -> ~ dwell K ws1 -> ~ has ws1 cG 530 -> made_motion c1 m1 ->
  s_feed (g_st c1) = G93 ->
  line_words K l2 ws2 -> g_line K pi c1 m1 l2 = Ok (c2, m2) -> consistent ws2 -> has ws2 cG 10 -> ~ has ws2 cG 40 -> ~ has ws2 cG 530 -> ~ has_letter ws2 cF ->
  ~ made_motion c2 m2 /\ g_res c2 = RError /\ s_cur (g_st c2) = s_cur (g_st c1).
Proof.
  intros Z SZ LW1 E1 A1 B1 C1 MM F93 LW2 E2 CO A2 B2 C2 NF.
  pose proof (g1_uses_up c m l1 c1 m1 ws1 LW1 SZ E1 A1 B1 C1 MM F93) as F0.
  pose proof (proj1 (sized_line K pi _ _ _ _ _ SZ E1)) as SZ1.
  assert (ND : ~ dwell K ws2) by (intros (X & _); contradiction).
  assert (NM : ~ made_motion c2 m2).
  { intros M2. destruct (g1_feed c1 m1 l2 c2 m2 ws2 Z LW2 SZ1 E2 A2 ND C2 M2) as [(f & AF & P)|((x & (w & I & L & _) & _) & _)].
    - destruct AF as [((w & I & L & _) & _)|(_ & _ & ->)]; [apply NF; exists w; auto|]. rewrite F0 in P. congruence.
    - apply NF. exists w. auto. }
  split; [exact NM|].
  destruct (line_cases K pi c1 m1 l2 c2 m2 ws2 LW2 SZ1 E2) as [(X & _)|(_ & b & c0 & cH & cM & _ & _ & _ & _ & _ & _ & O)]; [contradiction|].
  destruct (line_motion K pi c1 m1 l2 c2 m2 ws2 LW2 SZ1 E2) as [(_ & EC & _)|(X & _)]; [|contradiction].
  split; [|exact EC].
  destruct O as [x c3 m3 D1 _ _ _ _ _|g1 c3 m3 _ D2 _ _ _ _|g1 s1 c3 m3 _ _ _ _ _ CM _ _ _ R|c3 m3 _ _ _ _ _ _ X1 X2|c3 m3 _ _ D3 _ _ _ _ _]; try contradiction.
  - exfalso. apply NM. destruct (calcMotion_fields K pi _ _ _ _ _ CM) as (T & _). split; [rewrite T; destruct g1; discriminate|congruence].
  - exact X1.
  - exfalso. eapply D3; [|exact A2]. right. left. reflexivity.
Qed.
End P.
