(** Proofs about gcode.cpp, continued: effect of the first stages of parseBlock
    on the modal state and the parameter values. *)
Require Import List Arith NArith ZArith Bool Lia ZifyBool ZifyNat ZifyN Permutation.
From Verif Require Import Base Num MotionModel GcodeModel GcodeSpec GBlockProofs GParseProofs.
Import ListNotations.
Open Scope N_scope.

Section P.
Context {D : Type} (K : num D) (pi : D).
Local Notation word := (@word D).
Local Notation block := (@block D).
Local Notation gstate := (@gstate D).
Local Notation gcode := (@gcode D).
Local Notation zero := (nofZ K 0).

Ltac letne := intros; apply letter_st_ne; discriminate.

(** *** line number *)
Lemma line_spec c :
  keeps (let_in [cN]) c (getLineNumberWord K c) /\
  ((exists x, has_value (W c) cN x /\ g_st (getLineNumberWord K c) = st_letter LtN x (g_st c)) \/
   g_st (getLineNumberWord K c) = g_st c).
Proof.
  unfold getLineNumberWord. pose proof (search1_spec c cN) as H. destruct (search1 (g_block c) cN) as [[|i]|].
  - destruct H as (w & N & E). destruct (nleb K zero (word_number K c 0)).
    + split.
      * apply (keeps_remove (let_in [cN]) (on_state (st_letter LtN (word_number K c 0)) c) 0 w); [exact N|].
        apply let_in_spec. now left.
      * left. exists (w_number w). split; [exists w; split; [eapply nth_error_In; eauto|auto]|].
        cbn [g_st g_remove on_block on_state]. unfold word_number. unfold W in N. rewrite N. reflexivity.
    + split; [now apply keeps_eq|now right].
  - split; [now apply keeps_eq|now right].
  - split; [apply keeps_refl|now right].
Qed.
Lemma line_same {V} (pr : gstate -> V) c :
  (forall x s, pr (st_letter LtN x s) = pr s) -> pr (g_st (getLineNumberWord K c)) = pr (g_st c).
Proof. intros H. destruct (line_spec c) as (_ & [(x & _ & ->)| -> ]); auto. Qed.

(** *** feed rate mode *)
Lemma feedmode_block c : g_block (setFeedrateMode K c) = g_block c.
Proof.
  unfold setFeedrateMode. destruct (search2 (g_block c) cG 930); [reflexivity|].
  destruct (search2 (g_block c) cG 940); reflexivity.
Qed.
Lemma feedmode_spec c :
  (exists l n v, In (l, n, v) feed_words /\ has (W c) l n /\
      g_st (setFeedrateMode K c) = st_letter LtF zero (st_feed v (g_st c))) \/
  (setFeedrateMode K c = c /\ forall l n v, In (l, n, v) feed_words -> ~ has (W c) l n).
Proof.
  unfold setFeedrateMode. destruct (search2 (g_block c) cG 930) eqn:E.
  - left. exists cG, 930, G93. split; [cbn; tauto|]. split; [eapply search2_has; eauto|reflexivity].
  - destruct (search2 (g_block c) cG 940) eqn:E1.
    + left. exists cG, 940, G94. split; [cbn; tauto|]. split; [eapply search2_has; eauto|reflexivity].
    + right. split; [reflexivity|]. intros l n v I. cbn in I.
      destruct I as [I|[I|[]]]; inversion I; subst; now apply search2_none.
Qed.
Lemma feedmode_same {V} (pr : gstate -> V) c :
  (forall x s, pr (st_letter LtF x s) = pr s) -> (forall v s, pr (st_feed v s) = pr s) ->
  pr (g_st (setFeedrateMode K c)) = pr (g_st c).
Proof. intros H H1. destruct (feedmode_spec c) as [(l & n & v & _ & _ & ->)|(-> & _)]; [now rewrite H, H1|reflexivity]. Qed.

(** *** a value letter with a validity test *)
Definition tested (ch : N) (l : gletter) (ok : D -> bool) (c c' : gcode) : Prop :=
  keeps (let_in [ch]) c c' /\
  ((exists x, has_value (W c) ch x /\ ok x = true /\ g_st c' = st_letter l x (g_st c)) \/
   (g_st c' = g_st c /\ (~ has_letter (W c) ch \/ exists x, has_value (W c) ch x /\ ok x = false))).
Lemma tested_same {V} (pr : gstate -> V) ch l ok c c' : tested ch l ok c c' ->
  (forall x s, pr (st_letter l x s) = pr s) -> pr (g_st c') = pr (g_st c).
Proof. intros (_ & [(x & _ & _ & ->)|(-> & _)]); auto. Qed.

Lemma feedvalue_spec c : tested cF LtF (nltb K zero) c (setFeedrateValue K c).
Proof.
  unfold setFeedrateValue. destruct (hasWords (g_block c)) eqn:HW.
  - pose proof (search1_spec c cF) as H. destruct (search1 (g_block c) cF) as [i|].
    + destruct H as (w & N & E).
      assert (WN : word_number K c i = w_number w) by (unfold word_number; unfold W in N; now rewrite N).
      assert (HV : has_value (W c) cF (w_number w)) by (exists w; split; [eapply nth_error_In; eauto|auto]).
      rewrite WN. destruct (nltb K zero (w_number w)) eqn:T.
      * split; [|left; eauto].
        apply (keeps_remove (let_in [cF]) (on_state (st_letter LtF (w_number w)) c) i w); [exact N|]. apply let_in_spec. now left.
      * split; [now apply keeps_eq|]. right. split; [reflexivity|]. right. eauto.
    + destruct (s_feed (g_st c)); (split; [now apply keeps_eq|]); right; (split; [reflexivity|]); now left.
  - split; [apply keeps_refl|]. right. split; [reflexivity|]. left. intros (w & I & _).
    unfold hasWords in HW. unfold W in I. destruct (b_words (g_block c)); [destruct I|discriminate].
Qed.
Lemma spindlespeed_spec c : tested cS LtS (nleb K zero) c (setSpindleSpeed K c).
Proof.
  unfold setSpindleSpeed. pose proof (search1_spec c cS) as H. destruct (search1 (g_block c) cS) as [i|].
  - destruct H as (w & N & E).
    assert (WN : word_number K c i = w_number w) by (unfold word_number; unfold W in N; now rewrite N).
    assert (HV : has_value (W c) cS (w_number w)) by (exists w; split; [eapply nth_error_In; eauto|auto]).
    rewrite WN. destruct (nleb K zero (w_number w)) eqn:T.
    + split; [|left; eauto].
      apply (keeps_remove (let_in [cS]) (on_state (st_letter LtS (w_number w)) c) i w); [exact N|]. apply let_in_spec. now left.
    + split; [now apply keeps_eq|]. right. split; [reflexivity|]. right. eauto.
  - split; [apply keeps_refl|]. right. split; [reflexivity|]. now left.
Qed.

(** *** the head as a whole *)
Definition r_head : N -> N -> bool :=
  ror (let_in [cX; cY; cZ; cI; cJ; cK; cR; cN; cF; cS])
      (key_in [(cM, 30); (cM, 40); (cM, 50); (cM, 70); (cM, 80); (cM, 90); (cM, 480); (cM, 490)]).

Record head_ok (c c' : gcode) : Prop := {
  h_keeps : keeps r_head c c';
  h_motion : s_motion (g_st c') = s_motion (g_st c);
  h_plane : s_plane (g_st c') = s_plane (g_st c);
  h_unit : s_unit (g_st c') = s_unit (g_st c);
  h_dist : s_dist (g_st c') = s_dist (g_st c);
  h_coord : s_coord (g_st c') = s_coord (g_st c);
  h_cur : s_cur (g_st c') = s_cur (g_st c);
  h_next : s_next (g_st c') = s_next (g_st c);
  h_wcs : s_wcs (g_st c') = s_wcs (g_st c);
  h_feed : follows feed_words (W c) (s_feed (g_st c)) (s_feed (g_st c'));
  h_spindle : follows spindle_words (W c) (s_spindle (g_st c)) (s_spindle (g_st c'));
  h_over : follows over_words (W c) (s_over (g_st c)) (s_over (g_st c'));
  h_flood : follows flood_words (W c) (s_flood (g_st c)) (s_flood (g_st c'));
  h_mist : follows mist_words (W c) (s_mist (g_st c)) (s_mist (g_st c'));
  h_letters : forall ch l, In (ch, l) [(cX, LtX); (cY, LtY); (cZ, LtZ); (cI, LtI); (cJ, LtJ); (cK, LtK); (cR, LtR)] ->
     follows_letter ch (W c) (letter K (g_st c) l) (letter K (g_st c') l);
  h_same : forall l, In l [LtL; LtP; LtT] -> letter K (g_st c') l = letter K (g_st c) l;
  h_N : letter K (g_st c') LtN = letter K (g_st c) LtN \/ has_value (W c) cN (letter K (g_st c') LtN);
  h_S : (has_value (W c) cS (letter K (g_st c') LtS) /\ nleb K zero (letter K (g_st c') LtS) = true) \/
        (letter K (g_st c') LtS = letter K (g_st c) LtS /\
         (~ has_letter (W c) cS \/ exists x, has_value (W c) cS x /\ nleb K zero x = false));
  h_F : (has_value (W c) cF (letter K (g_st c') LtF) /\ nltb K zero (letter K (g_st c') LtF) = true) \/
        (((exists l n v, In (l, n, v) feed_words /\ has (W c) l n) /\ letter K (g_st c') LtF = zero \/
          (forall l n v, In (l, n, v) feed_words -> ~ has (W c) l n) /\ letter K (g_st c') LtF = letter K (g_st c) LtF) /\
         (~ has_letter (W c) cF \/ exists x, has_value (W c) cF x /\ nltb K zero x = false));
  h_len : length (s_letters (g_st c')) = length (s_letters (g_st c)) }.

Ltac opt_in I := cbn [In] in I; repeat (destruct I as [I|I]; [inversion I; subst; clear I|]); try destruct I.
Ltac inl I := cbn [In] in I; repeat (destruct I as [I|I]; [subst|]); try destruct I.
Ltac fo_same pr := rewrite (first_of_same pr) by (let I := fresh in intros ? ? ? ? I; opt_in I; reflexivity).
Ltac keyeq := intros ? ? E; unfold r_head, ror, keys in *; rewrite ?orb_true_iff, ?key_in_spec, ?let_in_spec in *;
   cbn [In map fst tab] in *; intuition (try congruence).

Lemma head_lemma c : gated c -> length (s_letters (g_st c)) = 13%nat -> head_ok c (parse_head K c).
Proof.
  intros G L. unfold parse_head.
  set (c1 := getAxisOffsetRadiusWords K c).
  set (c2 := getLineNumberWord K c1).
  set (c3 := setFeedrateMode K c2).
  set (c4 := setFeedrateValue K c3).
  set (c5 := setSpindleSpeed K c4).
  set (c6 := setSpindleMode c5).
  set (c7 := setCoolantMode c6).
  set (c8 := setOverrideMode c7).
  set (a1 := first_of c6 [(cM, 70, st_flood FloodM7)]).
  set (a2 := first_of a1 [(cM, 80, st_mist MistM8)]).
  assert (C7 : c7 = first_of a2 [(cM, 90, fun s => st_mist MistM9 (st_flood FloodM9 s))]) by reflexivity.
  pose proof (axis_words_keeps K c) as k1. fold c1 in k1.
  pose proof (proj1 (line_spec c1)) as k2. fold c2 in k2.
  pose proof (keeps_eq (fun _ _ => false) _ _ (feedmode_block c2)) as k3. fold c3 in k3.
  pose proof (feedvalue_spec c3) as T4. fold c4 in T4. pose proof (proj1 T4) as k4.
  pose proof (spindlespeed_spec c4) as T5. fold c5 in T5. pose proof (proj1 T5) as k5.
  pose proof (proj1 (first_of_spec c5 [(cM, 30, st_spindle M3); (cM, 40, st_spindle M4); (cM, 50, st_spindle M5)])) as k6.
  fold c6 in k6.
  pose proof (proj1 (first_of_spec c6 [(cM, 70, st_flood FloodM7)])) as k7a. fold a1 in k7a.
  pose proof (proj1 (first_of_spec a1 [(cM, 80, st_mist MistM8)])) as k7b. fold a2 in k7b.
  pose proof (proj1 (first_of_spec a2 [(cM, 90, fun s => st_mist MistM9 (st_flood FloodM9 s))])) as k7c. rewrite <- C7 in k7c.
  pose proof (proj1 (first_of_spec c7 [(cM, 480, st_over M48); (cM, 490, st_over M49)])) as k8. fold c8 in k8.
  pose proof (keeps_trans _ _ _ _ _ k1 k2) as K2.
  pose proof (keeps_trans _ _ _ _ _ K2 k3) as K3.
  pose proof (keeps_trans _ _ _ _ _ K3 k4) as K4.
  pose proof (keeps_trans _ _ _ _ _ K4 k5) as K5.
  pose proof (keeps_trans _ _ _ _ _ K5 k6) as K6.
  pose proof (keeps_trans _ _ _ _ _ K6 k7a) as K7a.
  pose proof (keeps_trans _ _ _ _ _ K7a k7b) as K7b.
  pose proof (keeps_trans _ _ _ _ _ K7b k7c) as K7.
  pose proof (keeps_trans _ _ _ _ _ K7 k8) as K8.
  (* frames *)
  assert (S8 : forall V (pr : gstate -> V), (forall v s, pr (st_over v s) = pr s) -> pr (g_st c8) = pr (g_st c7)).
  { intros V pr H. apply first_of_same. intros l n f s I. opt_in I; apply H. }
  assert (S7 : forall V (pr : gstate -> V), (forall v s, pr (st_flood v s) = pr s) -> (forall v s, pr (st_mist v s) = pr s) ->
    pr (g_st c7) = pr (g_st c6)).
  { intros V pr H H1. rewrite C7. rewrite first_of_same by (intros l n f s I; opt_in I; now rewrite H1, H).
    unfold a2. rewrite first_of_same by (intros l n f s I; opt_in I; apply H1).
    unfold a1. apply first_of_same. intros l n f s I; opt_in I; apply H. }
  assert (S6 : forall V (pr : gstate -> V), (forall v s, pr (st_spindle v s) = pr s) -> pr (g_st c6) = pr (g_st c5)).
  { intros V pr H. apply first_of_same. intros l n f s I. opt_in I; apply H. }
  assert (S5 : forall V (pr : gstate -> V), (forall x s, pr (st_letter LtS x s) = pr s) -> pr (g_st c5) = pr (g_st c4)).
  { intros V pr H. eapply tested_same; eauto. }
  assert (S4 : forall V (pr : gstate -> V), (forall x s, pr (st_letter LtF x s) = pr s) -> pr (g_st c4) = pr (g_st c3)).
  { intros V pr H. eapply tested_same; eauto. }
  assert (S3 : forall V (pr : gstate -> V), (forall x s, pr (st_letter LtF x s) = pr s) -> (forall v s, pr (st_feed v s) = pr s) ->
    pr (g_st c3) = pr (g_st c2)).
  { intros V pr H H1. now apply feedmode_same. }
  assert (S2 : forall V (pr : gstate -> V), (forall x s, pr (st_letter LtN x s) = pr s) -> pr (g_st c2) = pr (g_st c1)).
  { intros V pr H. now apply line_same. }
  assert (S1 : forall V (pr : gstate -> V),
    (forall l x s, In l [LtX; LtY; LtZ; LtI; LtJ; LtK; LtR] -> pr (st_letter l x s) = pr s) -> pr (g_st c1) = pr (g_st c)).
  { intros V pr H. now apply axis_words_same. }
  assert (SL : forall l, letter K (g_st c8) l = letter K (g_st c5) l).
  { intros l. rewrite (S8 _ (fun s => letter K s l)), (S7 _ (fun s => letter K s l)), (S6 _ (fun s => letter K s l)) by reflexivity. reflexivity. }
  assert (SM : forall V (pr : gstate -> V), (forall l x s, pr (st_letter l x s) = pr s) -> (forall v s, pr (st_feed v s) = pr s) ->
     pr (g_st c5) = pr (g_st c)).
  { intros V pr H H1. rewrite S5, S4, S3, S2, S1; auto. }
  assert (L1 : length (s_letters (g_st c1)) = 13%nat).
  { rewrite (S1 _ (fun s => length (s_letters s))); [exact L|]. intros. cbn. apply length_upd. }
  assert (L2 : length (s_letters (g_st c2)) = 13%nat).
  { rewrite (S2 _ (fun s => length (s_letters s))); [exact L1|]. intros. cbn. apply length_upd. }
  assert (L3 : length (s_letters (g_st c3)) = 13%nat).
  { rewrite (S3 _ (fun s => length (s_letters s))); [exact L2| |reflexivity]. intros. cbn. apply length_upd. }
  assert (L4 : length (s_letters (g_st c4)) = 13%nat).
  { rewrite (S4 _ (fun s => length (s_letters s))); [exact L3|]. intros. cbn. apply length_upd. }
  assert (L5 : length (s_letters (g_st c5)) = 13%nat).
  { rewrite (S5 _ (fun s => length (s_letters s))); [exact L4|]. intros. cbn. apply length_upd. }
  constructor.
  - eapply keeps_weak; [|exact K8]. unfold r_axis. keyeq.
  - rewrite S8, S7, S6, SM by reflexivity. reflexivity.
  - rewrite S8, S7, S6, SM by reflexivity. reflexivity.
  - rewrite S8, S7, S6, SM by reflexivity. reflexivity.
  - rewrite S8, S7, S6, SM by reflexivity. reflexivity.
  - rewrite S8, S7, S6, SM by reflexivity. reflexivity.
  - rewrite S8, S7, S6, SM by reflexivity. reflexivity.
  - rewrite S8, S7, S6, SM by reflexivity. reflexivity.
  - rewrite S8, S7, S6, SM by reflexivity. reflexivity.
  - (* feed *)
    rewrite S8, S7, S6, S5, S4 by reflexivity.
    rewrite <- (S1 _ s_feed) by reflexivity. rewrite <- (S2 _ s_feed) by reflexivity.
    eapply (follows_keeps feed_words _ _ _ _ _ K2); [reflexivity|].
    destruct (feedmode_spec c2) as [(l & n & v & I & H & E)|(E & H)]; fold c3 in E.
    + left. exists l, n. rewrite E. auto.
    + right. rewrite E. auto.
  - (* spindle *)
    rewrite S8, S7 by reflexivity. rewrite <- (SM _ s_spindle) by reflexivity.
    eapply (follows_keeps spindle_words _ _ _ _ _ K5); [reflexivity|].
    apply (first_of_follows s_spindle st_spindle spindle_words c5). reflexivity.
  - (* override *)
    rewrite <- (SM _ s_over), <- (S6 _ s_over), <- (S7 _ s_over) by reflexivity.
    eapply (follows_keeps over_words _ _ _ _ _ K7); [reflexivity|].
    apply (first_of_follows s_over st_over over_words c7). reflexivity.
  - (* flood *)
    rewrite S8 by reflexivity. rewrite <- (SM _ s_flood), <- (S6 _ s_flood) by reflexivity.
    eapply (follows_keeps flood_words _ _ _ _ _ K6); [reflexivity|].
    rewrite C7.
    destruct (first_of_spec a2 [(cM, 90, fun s => st_mist MistM9 (st_flood FloodM9 s))]) as (_ & [(l & n & f & I & H & E)|(E & H)] & _).
    + opt_in I. left. exists cM, 90. rewrite E. split; [cbn; tauto|].
      apply (has_keeps _ _ _ _ _ (keeps_trans _ _ _ _ _ k7a k7b)); [reflexivity|exact H].
    + rewrite E. assert (N9 : ~ has (W c6) cM 90).
      { intros X. apply (H cM 90 _ (or_introl eq_refl)). apply (has_keeps _ _ _ _ _ (keeps_trans _ _ _ _ _ k7a k7b)); [reflexivity|exact X]. }
      unfold a2. rewrite (first_of_same s_flood) by (intros ? ? ? ? I; opt_in I; reflexivity).
      destruct (first_of_spec c6 [(cM, 70, st_flood FloodM7)]) as (_ & [(l & n & f & I & H' & E')|(E' & H')] & _).
      * opt_in I. left. exists cM, 70. fold a1 in E'. rewrite E'. split; [cbn; tauto|exact H'].
      * right. fold a1 in E'. rewrite E'. split; [reflexivity|]. intros l n v I. cbn in I.
        destruct I as [I|[I|[]]]; inversion I; subst; [|exact N9]. apply (H' cM 70 _ (or_introl eq_refl)).
  - (* mist *)
    rewrite S8 by reflexivity. rewrite <- (SM _ s_mist), <- (S6 _ s_mist) by reflexivity.
    assert (M1 : s_mist (g_st a1) = s_mist (g_st c6)).
    { apply (first_of_same s_mist). intros ? ? ? ? I; opt_in I; reflexivity. }
    rewrite <- M1.
    eapply (follows_keeps mist_words _ _ _ _ _ K7a); [reflexivity|].
    rewrite C7.
    destruct (first_of_spec a2 [(cM, 90, fun s => st_mist MistM9 (st_flood FloodM9 s))]) as (_ & [(l & n & f & I & H & E)|(E & H)] & _).
    + opt_in I. left. exists cM, 90. rewrite E. split; [cbn; tauto|].
      apply (has_keeps _ _ _ _ _ k7b); [reflexivity|exact H].
    + rewrite E. assert (N9 : ~ has (W a1) cM 90).
      { intros X. apply (H cM 90 _ (or_introl eq_refl)). apply (has_keeps _ _ _ _ _ k7b); [reflexivity|exact X]. }
      destruct (first_of_spec a1 [(cM, 80, st_mist MistM8)]) as (_ & [(l & n & f & I & H' & E')|(E' & H')] & _).
      * opt_in I. left. exists cM, 80. fold a2 in E'. rewrite E'. split; [cbn; tauto|exact H'].
      * right. fold a2 in E'. rewrite E'. split; [reflexivity|]. intros l n v I. cbn in I.
        destruct I as [I|[I|[]]]; inversion I; subst; [|exact N9]. apply (H' cM 80 _ (or_introl eq_refl)).
  - (* axis, offset and radius letters *)
    intros ch l I. rewrite SL.
    assert (X : letter K (g_st c5) l = letter K (g_st c1) l).
    { cbn [In] in I.
      repeat (destruct I as [I|I]; [inversion I; subst;
        rewrite (S5 _ (fun s => letter K s _)), (S4 _ (fun s => letter K s _)), (S3 _ (fun s => letter K s _)), (S2 _ (fun s => letter K s _)) by (letne || reflexivity);
        reflexivity|]). destruct I. }
    rewrite X. now apply axis_words_follows.
  - intros l I. rewrite SL. cbn [In] in I.
    repeat (destruct I as [I|I]; [subst;
        rewrite (S5 _ (fun s => letter K s _)), (S4 _ (fun s => letter K s _)), (S3 _ (fun s => letter K s _)), (S2 _ (fun s => letter K s _)),
                (S1 _ (fun s => letter K s _)) by (letne || reflexivity || (intros ? ? ? I0; inl I0; letne));
        reflexivity|]). destruct I.
  - rewrite SL.
    rewrite (S5 _ (fun s => letter K s _)), (S4 _ (fun s => letter K s _)), (S3 _ (fun s => letter K s _)) by (letne || reflexivity).
    destruct (line_spec c1) as (_ & [(x & H & E)|E]); fold c2 in E.
    + right. rewrite E, letter_st_eq by exact L1. apply (value_keeps _ _ _ _ _ k1); [reflexivity|exact H].
    + left. rewrite E. apply (S1 _ (fun s => letter K s LtN)). intros ? ? ? I0; inl I0; letne.
  - rewrite SL. destruct T5 as (_ & [(x & H & O & E)|(E & H)]).
    + left. rewrite E, letter_st_eq by exact L4. split; [|exact O]. apply (value_keeps _ _ _ _ _ K4); [reflexivity|exact H].
    + right. rewrite E. split.
      * rewrite (S4 _ (fun s => letter K s _)), (S3 _ (fun s => letter K s _)), (S2 _ (fun s => letter K s _)),
                (S1 _ (fun s => letter K s _)) by (letne || reflexivity || (intros ? ? ? I0; inl I0; letne)). reflexivity.
      * destruct H as [H|(x & H & O)].
        -- left. intros X. apply H. apply (letter_keeps _ _ _ _ K4); [reflexivity|exact X].
        -- right. exists x. split; [|exact O]. apply (value_keeps _ _ _ _ _ K4); [reflexivity|exact H].
  - rewrite SL, (S5 _ (fun s => letter K s _)) by letne.
    destruct T4 as (_ & [(x & H & O & E)|(E & H)]).
    + left. rewrite E, letter_st_eq by exact L3. split; [|exact O]. apply (value_keeps _ _ _ _ _ K3); [reflexivity|exact H].
    + right. rewrite E. split.
      * destruct (feedmode_spec c2) as [(l & n & v & I & Hs & E3)|(E3 & Hs)]; fold c3 in E3.
        -- left. split.
           ++ exists l, n, v. split; [exact I|]. apply (has_keeps _ _ _ _ _ K2); [|exact Hs]. clear -I. cbn in I.
              destruct I as [I|[I|[]]]; inversion I; subst; reflexivity.
           ++ rewrite E3. apply letter_st_eq. exact L2.
        -- right. split.
           ++ intros l n v I X. apply (Hs l n v I). apply (has_keeps _ _ _ _ _ K2); [|exact X]. clear -I. cbn in I.
              destruct I as [I|[I|[]]]; inversion I; subst; reflexivity.
           ++ rewrite E3. rewrite (S2 _ (fun s => letter K s _)), (S1 _ (fun s => letter K s _)) by (letne || (intros ? ? ? I0; inl I0; letne)). reflexivity.
      * destruct H as [H|(x & H & O)].
        -- left. intros X. apply H. apply (letter_keeps _ _ _ _ K3); [reflexivity|exact X].
        -- right. exists x. split; [|exact O]. apply (value_keeps _ _ _ _ _ K3); [reflexivity|exact H].
  - rewrite (S8 _ (fun s => length (s_letters s))), (S7 _ (fun s => length (s_letters s))), (S6 _ (fun s => length (s_letters s))) by reflexivity.
    now rewrite L5, L.
Qed.
End P.
