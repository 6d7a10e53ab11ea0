(** Properties of the G-code parser: C10, C34-C49, C58-C62.

    The parser theorems hold for every arithmetic [K] (so for the binary64 numbers of
    the compiled code) unless they speak of x_num, exact arithmetic.  [line_words K l ws]:
    the text [l] consists of the words [ws].  [reached K pi c m]: some program leads
    to parser state [c] and motion object [m]. *)
Require Import String List Arith NArith ZArith Bool Reals Lra Lia.
From Verif Require Import Base Num NumR NumSF MotionModel GcodeModel GcodeSpec GeomSpec GcodeRSpec GText GBlockProofs GSplitProofs GParseProofs GHeadProofs GStageProofs
  GMeaningProofs GArcProofs GPathProofs GTotalProofs GLineProofs GWitness GExamples GHostProofs.
Import ListNotations.
Open Scope N_scope.

(** C10.  What getMessage delivers fits the parser's line buffer, whatever the host
    sent; the characters copied to it are [strip false m]. *)
Theorem C10_message_fits : forall h ops m,
  length (HostModel.rx_arr h) = 256%nat -> length (HostModel.tx_arr h) = 256%nat ->
  let h' := fst (HostModel.host_run (HostModel.host_initialize h) ops) in
  snd (HostModel.host_step h' HostModel.HPoll) = HostModel.HMsg m ->
  (length m <= 257)%nat /\ (length (strip false m) < gCodeLineSize)%nat.
Proof. exact message_fits. Qed.
Print Assumptions C10_message_fits.
(** A direct caller can overrun it: 256 characters are too many. *)
Theorem C10_long_line_overruns : forall D (K : num D) l, (gCodeLineSize <= length (strip false l))%nat -> getBlock K l = UB.
Proof. exact long_line. Qed.
Print Assumptions C10_long_line_overruns.
Example C10_run : exists m, snd (HostModel.host_step (fst (HostModel.host_run (HostModel.host_initialize HostModel.host_zero)
   (map HostModel.HRx (txt "G0 X1" ++ [10])))) HostModel.HPoll) = HostModel.HMsg m /\ strip false m = txt "G0X1".
Proof. eexists. split; vm_compute; reflexivity. Qed.

(** C34.  Blanks, case, comments and what follows the end of the line do not matter. *)
Theorem C34_layout : forall D (K : num D) l l', same_text l l' ->
  getBlock K l = getBlock K l' /\ forall pi c m, g_line K pi c m l = g_line K pi c m l'.
Proof. intros D K l l' H. split; [exact (same_block K l l' H)|intros; exact (same_line K pi c m l l' H)]. Qed.
Print Assumptions C34_layout.
Example C34_example : same_text (txt "g0 x1 (no)") (txt "G0X1").
Proof.
  eapply same_trans; [apply (same_comment (txt "g0 x1 ") (txt "no") []); [intros (p & q & E & _); apply (f_equal (fun l => existsb (N.eqb 40) l)) in E;
    rewrite existsb_app in E; cbn in E; rewrite orb_true_r in E; discriminate|cbn; intuition discriminate..]|].
  eapply same_trans; [apply (same_space (txt "g0") (txt "x1 "))|].
  eapply same_trans; [apply (same_space (txt "g0x1") [])|].
  eapply same_trans; [apply same_sym; apply (same_case [] 71 (txt "0x1")); lia|].
  apply same_sym. apply (same_case (txt "G0") 88 (txt "1")). lia.
Qed.

(** C35.  A text of at most 16 words is read as these words. *)
Theorem C35_splitting : forall D (K : num D) ts, Forall text_word ts -> (length ts <= 16)%nat -> (length (text_of ts) <= 255)%nat ->
  (forall l t, In (l, t) ts -> l = cG \/ l = cM -> exists n, int_of K l (number_of K t) = Ok n) ->
  exists b, getBlock K (text_of ts) = Ok b /\
    Forall2 (fun lt w => w_letter w = fst lt /\ w_number w = number_of K (snd lt) /\
                         int_of K (fst lt) (number_of K (snd lt)) = Ok (w_int w)) ts (b_words b).
Proof.
  intros D K ts T L LT I. destruct (split_ok K ts T L LT I) as (b & E). exists b. split; [exact E|exact (split_lemma K ts b T L E)].
Qed.
Print Assumptions C35_splitting.
(** Of any other text: what precedes the first letter is skipped, of a word the first
    15 characters after the letter count, and of the words the first 16. *)
Theorem C35_any_text : forall D (K : num D) lead ws b, Forall plain lead -> Forall long_word ws ->
  getBlock K (lead ++ text_of ws) = Ok b ->
  Forall2 (fun lt w => w_letter w = fst lt /\ w_number w = number_of K (snd lt) /\
                       int_of K (fst lt) (number_of K (snd lt)) = Ok (w_int w)) (kept_words ws) (b_words b).
Proof. exact @any_split_lemma. Qed.
Print Assumptions C35_any_text.
(** Every text of capital letters and plain characters has this form. *)
Theorem C35_any_text_covers : forall t, Forall (fun c => 65 <= c <= 90 \/ plain c) t ->
  exists lead ws, t = lead ++ text_of ws /\ Forall plain lead /\ Forall long_word ws.
Proof. exact cut_lemma. Qed.
Print Assumptions C35_any_text_covers.
Example C35_any_run : forall X, exists b, getBlock (g_f X) (txt "%12G1X1.00000000000000000000000000000Y2") = Ok b /\
  map (fun w => w_letter w) (b_words b) = [cG; cX; cY].
Proof. intros X. eexists. split; vm_compute; reflexivity. Qed.
(** The value of a word is that of its decimal text ... *)
Theorem C35_value : forall t neg ip fp, decimal t neg ip fp ->
  number_of x_num t = XF ((if neg then -1 else 1) * (IZR (Z.of_N (dec_val (ip ++ fp))) / 10 ^ length fp))%R.
Proof. exact number_real. Qed.
Print Assumptions C35_value.
Theorem C35_value_rounded : forall D (K : num D) t neg ip fp, decimal t neg ip fp ->
  number_of K t = (if neg then nopp K else fun x => x) (ndec K (Z.of_N (dec_val (ip ++ fp))) (N.of_nat (length fp))).
Proof. exact @number_decimal. Qed.
Print Assumptions C35_value_rounded.
(** ... and codes with one decimal are recognized exactly by the binary64 code. *)
Theorem C35_codes : forall X n, In n (map N.of_nat (seq 0 2000)) ->
  int_of (g_f X) cG (number_of (g_f X) (tenth_text n)) = Ok n /\
  int_of (g_f X) cG (number_of (g_f X) (whole_text (n / 10))) = Ok (n / 10 * 10).
Proof.
  intros X n I. pose proof (proj1 (forallb_forall _ _) (w_codes X) n I) as H. cbv beta in H.
  destruct (int_of _ _ (number_of _ (tenth_text n))) as [a|]; [|discriminate].
  destruct (int_of _ _ (number_of _ (whole_text (n / 10)))) as [b|]; [|discriminate].
  apply andb_true_iff in H. destruct H as (A & B). apply N.eqb_eq in A, B. now subst.
Qed.
Print Assumptions C35_codes.
Example C35_example : line_words x_num (txt "G2X10I5J0F600") [wd cG 2 20; wd cX 10 0; wd cI 5 0; wd cJ 0 0; wd cF 600 0].
Proof. exact arc_read. Qed.

(** C36: refuted.  Unknown words are ignored, and so is everything after the 16th word. *)
Theorem C36_ignored_words_refuted : forall X,
  (exists c m, run X ["T1 Q5 H5 G0 X1"%string] = Ok (c, m) /\ g_res c <> RError /\
     exists c' m', run X ["G0 X1"%string] = Ok (c', m') /\ g_st c' = g_st c /\ m' = m /\ g_res c' = g_res c) /\
  (exists c m, run X [String.append sixteen " G0 X1"] = Ok (c, m) /\
     sm_type m = mt_none /\ s_cur (g_st c) = s_cur (gstate0 (g_f X)) /\ g_res c = OkContextUpdateOnly /\ g_err c = ENone).
Proof. intros X. split; [exact (w_unknown X)|exact (w_truncated X)]. Qed.
Print Assumptions C36_ignored_words_refuted.

(** C37.  Two words of one group of the collision table, or two equal value letters. *)
Theorem C37_collision : forall D (K : num D) pi c m l ws, line_words K l ws ->
  (group_collision ws ->
     exists b, g_line K pi c m l = Ok (mkGC b (g_st c) RError ModalGroupCollision, sm_with_type mt_none m)) /\
  (~ group_collision ws -> letter_collision ws ->
     exists b, g_line K pi c m l = Ok (mkGC b (g_st c) RError ValueWordCollision, sm_with_type mt_none m)).
Proof. exact @line_collision. Qed.
Print Assumptions C37_collision.
Example C37_run : forall X, exists c m, run X ["G20 G21"%string] = Ok (c, m) /\ g_res c = RError /\ g_err c = ModalGroupCollision /\
  exists c' m', run X ["G0 X1 X2"%string] = Ok (c', m') /\ g_res c' = RError /\ g_err c' = ValueWordCollision /\
    s_cur (g_st c') = s_cur (gstate0 (g_f X)).
Proof. exact w_collide. Qed.

(** C38: refuted for G59.1-G59.3 and M48/M49. *)
Theorem C38_group_words_refuted : forall X,
  (exists c m, run X ["G54 G59.1"%string] = Ok (c, m) /\ g_res c = OkContextUpdateOnly /\ g_err c = ENone) /\
  (exists c m, run X ["M48 M49"%string] = Ok (c, m) /\ g_res c = OkContextUpdateOnly /\ g_err c = ENone).
Proof. intros X. split; [exact (w_G59_1 X)|exact (w_M48 X)]. Qed.
Print Assumptions C38_group_words_refuted.
(** True for all the other groups. *)
Theorem C38_group_words_partial : forall D (K : num D) pi c m l ws T a b, line_words K l ws ->
  In T modal_sets -> In a T -> In b T -> a <> b -> has ws (fst a) (snd a) -> has ws (fst b) (snd b) ->
  exists b, g_line K pi c m l = Ok (mkGC b (g_st c) RError ModalGroupCollision, sm_with_type mt_none m).
Proof.
  intros D K pi c m l ws T a b LW IT Ia Ib NE A B.
  exact (proj1 (line_collision K pi c m l ws LW) (set_collision T a b ws IT Ia Ib NE A B)).
Qed.
Print Assumptions C38_group_words_partial.
Example C38_run : forall X, exists c m, run X ["G20 G21"%string] = Ok (c, m) /\ g_res c = RError /\ g_err c = ModalGroupCollision.
Proof. intros X. destruct (w_collide X) as (c & m & A & B & C & _). eauto. Qed.

(** C39: refuted.  Faulty lines whose error is lost, an arc without feed rate, and a
    rejected feed rate replaced by the old one. *)
Theorem C39_errors_reported_refuted : forall X,
  (forall l, In l ["N-1"; "F-1"; "S-1"; "G4"; "G4 P-1"; "G10"; "G10 L2 P1"; "G33"; "M6 T1"; "Q1"]%string ->
     exists c m, run X [l] = Ok (c, m) /\ g_res c = OkContextUpdateOnly /\ g_err c = ENone) /\
  (forall l, In l ["G2 X10 I5 J0"; "G3 X10 I5 J0"]%string ->
     exists c m, run X [l] = Ok (c, m) /\ g_res c = OkContextUpdateAndMotion /\ g_err c = ENone /\ sm_vFeed m = num_f X 0) /\
  (exists c m, run X ["G1 X10 F600"; "G1 X20 F-5"]%string = Ok (c, m) /\
     g_res c = OkContextUpdateAndMotion /\ g_err c = ENone /\ s_cur (g_st c) = [num_f X 20; num_f X 0; num_f X 0]).
Proof. intros X. split; [exact (w_unreported X)|]. split; [exact (w_no_feed X)|exact (w_bad_F X)]. Qed.
Print Assumptions C39_errors_reported_refuted.
(** Reported: collisions (C37) and a G1 without feed rate. *)
Theorem C39_no_feed_partial : forall D (K : num D) pi c m l c' m' ws, line_words K l ws -> consistent ws -> reached K pi c m ->
  g_line K pi c m l = Ok (c', m') -> has ws cG 10 -> ~ has ws cG 40 -> ~ has ws cG 530 ->
  ~ has_letter ws cF -> nltb K (nofZ K 0) (letter K (g_st c) LtF) = false ->
  (forall l n v, In (l, n, v) feed_words -> ~ has ws l n) ->
  g_res c' = RError /\ g_err c' = InvalidFeedrate /\ s_cur (g_st c') = s_cur (g_st c) /\ ~ made_motion c' m'.
Proof. intros. eapply no_feed_lemma; try eassumption. eapply reached_sized; eassumption. Qed.
Print Assumptions C39_no_feed_partial.
Example C39_run : forall X, exists c m, run X ["G1 X10"%string] = Ok (c, m) /\ g_res c = RError /\ g_err c = InvalidFeedrate.
Proof. intros X. destruct (w_leak_first X) as (c & m & A & B & C & _). eauto. Qed.

(** C40.  Modal groups and parameter values. *)
Theorem C40_modal : forall D (K : num D) pi c m l c' m' ws, line_words K l ws -> consistent ws -> reached K pi c m ->
  g_line K pi c m l = Ok (c', m') ->
  let s := g_st c in let s' := g_st c' in
  (follows feed_words ws (s_feed s) (s_feed s') /\
   follows spindle_words ws (s_spindle s) (s_spindle s') /\
   follows over_words ws (s_over s) (s_over s') /\
   follows flood_words ws (s_flood s) (s_flood s') /\
   follows mist_words ws (s_mist s) (s_mist s')) /\
  (~ dwell K ws ->
     follows unit_words ws (s_unit s) (s_unit s') /\
     follows plane_words ws (s_plane s) (s_plane s') /\
     follows dist_words ws (s_dist s) (s_dist s') /\
     follows coord_words ws (s_coord s) (s_coord s') /\
     (~ has ws cG 530 -> follows motion_words ws (s_motion s) (s_motion s'))) /\
  (has ws cG 530 -> s_motion s' = s_motion s) /\
  (dwell K ws -> s_unit s' = s_unit s /\ s_plane s' = s_plane s /\ s_dist s' = s_dist s /\
                 s_coord s' = s_coord s /\ s_motion s' = s_motion s).
Proof. intros. eapply modal_lemma; try eassumption. eapply reached_sized; eassumption. Qed.
Print Assumptions C40_modal.
Theorem C40_values : forall D (K : num D) pi c m l c' m' ws, line_words K l ws -> consistent ws -> reached K pi c m ->
  g_line K pi c m l = Ok (c', m') ->
  let s := g_st c in let s' := g_st c' in let zero := nofZ K 0 in
  (forall ch g, In (ch, g) [(cX, LtX); (cY, LtY); (cZ, LtZ); (cI, LtI); (cJ, LtJ); (cK, LtK); (cR, LtR)] ->
     follows_letter ch ws (letter K s g) (letter K s' g)) /\
  ((has_value ws cS (letter K s' LtS) /\ nleb K zero (letter K s' LtS) = true) \/
   (letter K s' LtS = letter K s LtS /\
    (~ has_letter ws cS \/ exists x, has_value ws cS x /\ nleb K zero x = false))) /\
  (letter K s' LtF = letter K s LtF \/ has_value ws cF (letter K s' LtF) \/
   (letter K s' LtF = zero /\
    ((exists l n v, In (l, n, v) feed_words /\ has ws l n) \/ (has ws cG 10 /\ s_feed s' = G93)))) /\
  (letter K s' LtN = letter K s LtN \/ has_value ws cN (letter K s' LtN)) /\
  (letter K s' LtP = letter K s LtP /\ ~ dwell K ws \/ has_value ws cP (letter K s' LtP) /\ dwell K ws) /\
  letter K s' LtL = letter K s LtL /\ letter K s' LtT = letter K s LtT.
Proof. intros D K pi c m l c' m' ws LW CO RE E. exact (letters_lemma K pi c m l c' m' ws LW CO (reached_sized _ _ _ _ RE) E). Qed.
Print Assumptions C40_values.
(** Refuted: the modal words of a block with a dwell are lost. *)
Theorem C40_dwell_refuted : forall X, exists c m, run X ["G4 P1 G20 G91 G18 G55"%string] = Ok (c, m) /\
  g_res c = OkContextUpdateAndMotion /\ g_err c = ENone /\
  s_unit (g_st c) = G21 /\ s_dist (g_st c) = G90 /\ s_plane (g_st c) = G17 /\ s_coord (g_st c) = G54.
Proof. exact w_dwell_modes. Qed.
Print Assumptions C40_dwell_refuted.
Example C40_run : forall X, exists c m, run X ["G20 G91 G19 G55 M3 M7 G93 S100"%string] = Ok (c, m) /\ g_res c = OkContextUpdateOnly /\
  s_unit (g_st c) = G20 /\ s_dist (g_st c) = G91 /\ s_plane (g_st c) = G19 /\ s_coord (g_st c) = G55 /\
  s_spindle (g_st c) = M3 /\ s_flood (g_st c) = FloodM7 /\ s_feed (g_st c) = G93 /\ letter (g_f X) (g_st c) LtS = num_f X 100.
Proof. exact w_modal. Qed.

(** C41.  The motions of a program join. *)
Theorem C41_join : forall D (K : num D) pi c m ls c' m' outs, reached K pi c m -> g_run K pi c m ls = Ok (c', m', outs) ->
  chain K (s_cur (g_st c)) outs (s_cur (g_st c')).
Proof. intros. eapply chain_lemma; [eapply reached_sized; eassumption|eassumption]. Qed.
Print Assumptions C41_join.
Example C41_run : forall X, exists c m, run X ["G21 G90 F600"; "G1 X10"; "Y10"; "X0"; "Y0"]%string = Ok (c, m) /\
  g_res c = OkContextUpdateAndMotion /\ s_cur (g_st c) = [num_f X 0; num_f X 0; num_f X 0] /\
  sm_start m = [num_f X 0; num_f X 10; num_f X 0] /\ sm_vFeed m = num_f X 10.
Proof. exact w_square. Qed.

(** C42: refuted in incremental mode, after a rejected block and after a change of units. *)
Theorem C42_unnamed_axes_refuted : forall X,
  (exists c m, run X ["G91"; "G1 X10 F600"; "Y5"]%string = Ok (c, m) /\
     g_res c = OkContextUpdateAndMotion /\ sm_delta m = [num_f X 10; num_f X 5; num_f X 0]) /\
  (exists c m, run X ["G1 X10"; "G1 Y5 F600"]%string = Ok (c, m) /\
     g_res c = OkContextUpdateAndMotion /\ sm_delta m = [num_f X 10; num_f X 5; num_f X 0]) /\
  (exists c m, run X ["G21 G0 X254"; "G20 Y1"]%string = Ok (c, m) /\
     g_res c = OkContextUpdateAndMotion /\ nltb (g_f X) (num_f X 6000) (nth 0 (sm_delta m) (num_f X 0)) = true).
Proof. intros X. split; [exact (w_repeat X)|]. split; [exact (w_leak X)|exact (w_units X)]. Qed.
Print Assumptions C42_unnamed_axes_refuted.
(** True for programs without those. *)
Theorem C42_unnamed_axes_partial : forall D (K : num D) pi c m l ws c' m' ch i g, nadd K (nofZ K 0) (nofZ K 0) = nofZ K 0 ->
  plain_run K pi c m -> line_words K l ws -> g_line K pi c m l = Ok (c', m') -> plain_line ws c' ->
  In (ch, i, g) axis_letters -> ~ has_letter ws ch ->
  coord_at K (s_cur (g_st c')) i = coord_at K (s_cur (g_st c)) i.
Proof. exact @plain_unnamed. Qed.
Print Assumptions C42_unnamed_axes_partial.
Example C42_zero : (forall X, nadd (g_f X) (num_f X 0) (num_f X 0) = num_f X 0) /\ nadd x_num (nofZ x_num 0) (nofZ x_num 0) = nofZ x_num 0.
Proof. split; [exact w_zero|exact zero_real]. Qed.

(** C43.  Absolute coordinates. *)
Theorem C43_absolute : forall D (K : num D) pi c m l c' m' ws ch i g x, line_words K l ws -> reached K pi c m ->
  g_line K pi c m l = Ok (c', m') -> made_motion c' m' -> s_dist (g_st c') = G90 ->
  In (ch, i, g) axis_letters -> has_value ws ch x ->
  let s' := g_st c' in
  (~ has ws cG 530 -> coord_at K (s_cur s') i = nadd K (offset K s' (s_coord s') i) (to_mm K (s_unit s') x)) /\
  (has ws cG 530 -> coord_at K (s_cur s') i = nadd K (offset K s' G53 i) (to_mm K (s_unit s') x)).
Proof. intros. eapply absolute_lemma; try eassumption. eapply reached_sized; eassumption. Qed.
Print Assumptions C43_absolute.
Example C43_run : exists c m, g_line x_num (XF PI) (gcode0 x_num) (sm_new x_num) (txt "G3X10R5F600") = Ok (c, m) /\ made_motion c m /\
  at_mm (s_cur (g_st c)) (fun i => match i with 0%nat => 10 | 1%nat => 0 | _ => 0 end)%R.
Proof. destruct radius_example as (c & m & E & MM & _). exists c, m. split; [exact E|]. split; [exact MM|exact (radius_end c m E MM)]. Qed.

(** C44.  Feed rates and lengths in exact arithmetic. *)
Theorem C44_feed : forall c m l c' m' ws, line_words x_num l ws -> reachedR c m ->
  g_line x_num (XF PI) c m l = Ok (c', m') -> made_motion c' m' ->
  (sm_type m' = traverse -> sm_vFeed m' = XP) /\
  (is_feed_type (sm_type m') -> forall f L, active_feed x_num ws (letter x_num (g_st c) LtF) (XF f) -> sm_length m' = XF L ->
    let v := (match s_feed (g_st c') with G93 => L * f / 60 | G94 => mm (s_unit (g_st c')) f / 60 end)%R in
    sm_vFeed m' = XF v /\ (0 < v -> sm_duration m' = XF (L / v))%R).
Proof. intros. eapply speed_lemma; try eassumption. eapply reached_sized; eassumption. Qed.
Print Assumptions C44_feed.
(** A straight motion is as long as the distance of its ends, and its path joins them. *)
Theorem C44_straight : forall c m l c' m', reachedR c m -> g_line x_num (XF PI) c m l = Ok (c', m') -> made_motion c' m' ->
  is_line_type (sm_type m') ->
  exists p q, at_mm (s_cur (g_st c)) p /\ at_mm (s_cur (g_st c')) q /\
    sm_length m' = XF (distance p q) /\ (0 < distance p q -> exists P, goes m' P p q /\ pa_arc P = None)%R.
Proof.
  intros c m l c' m' RE E MM T. apply (line_lemma c m l c' m'); try assumption;
  [eapply reached_sized|eapply reached_finite|eapply reached_radius]; eassumption.
Qed.
Print Assumptions C44_straight.
Example C44_run : exists c m, g_line x_num (XF PI) (gcode0 x_num) (sm_new x_num) (txt "G0X3Y4") = Ok (c, m) /\
  made_motion c m /\ sm_type m = traverse /\ sm_length m = XF 5.
Proof. exact linear_length. Qed.

(** C45, C46.  Arcs given by centre offsets. *)
Theorem C45_C46_offset_arc : forall c m l c' m' ws a0 a1 o0 o1, line_words x_num l ws -> reachedR c m ->
  g_line x_num (XF PI) c m l = Ok (c', m') -> made_motion c' m' -> is_arc_type (sm_type m') ->
  arc_axes (s_plane (g_st c')) = (a0, a1) ->
  has_value ws (fst (offset_letter a0)) (XF o0) -> has_value ws (fst (offset_letter a1)) (XF o1) ->
  (exists p q sa da, at_mm (s_cur (g_st c)) p /\ at_mm (s_cur (g_st c')) q /\
    let c0 := p a0 + mm (s_unit (g_st c')) o0 in
    let c1 := p a1 + mm (s_unit (g_st c')) o1 in
    let r := sqrt (dist2 c0 c1 (p a0) (p a1)) in
    arc_is m' a0 a1 c0 c1 r sa da /\
    swept (is_cw (sm_type m')) c0 c1 (p a0) (p a1) (q a0) (q a1) sa da /\
    (p a0 = q a0 -> p a1 = q a1 -> Rabs da = 2 * PI) /\
    (0 < r -> dist2 c0 c1 (q a0) (q a1) = dist2 c0 c1 (p a0) (p a1) ->
     exists P, goes m' P p q /\ pa_arc P = Some (mkArc a0 a1 c0 c1 r sa da)))%R.
Proof.
  intros c m l c' m' ws a0 a1 o0 o1 LW RE E MM T AA H0 H1.
  apply (arc_offset_lemma c m l c' m' ws a0 a1 o0 o1); try assumption; [eapply reached_sized|eapply reached_finite]; eassumption.
Qed.
Print Assumptions C45_C46_offset_arc.
Example C45_offset_example : exists c m, g_line x_num (XF PI) (gcode0 x_num) (sm_new x_num) (txt "G2X10I5J0F600") = Ok (c, m) /\
  made_motion c m /\ is_arc_type (sm_type m) /\ arc_axes (s_plane (g_st c)) = (0, 1)%nat /\
  has_value arc_words (fst (offset_letter 0)) (XF 5) /\ has_value arc_words (fst (offset_letter 1)) (XF 0).
Proof.
  destruct arc_example as (c & m & E & MM & T). exists c, m. split; [exact E|]. split; [exact MM|]. split; [left; exact T|].
  destruct (modes_kept _ _ _ _ arc_read arc_consistent E) as (_ & _ & _ & ->); try no_word; try no_words.
  split; [reflexivity|]. split; [a_word2|eexists; split; [right; right; right; left; reflexivity|split; reflexivity]].
Qed.

(** C45, C46.  Arcs given by the radius. *)
Theorem C45_C46_radius_arc : forall c m l c' m' ws a0 a1 r p q, line_words x_num l ws -> reachedR c m ->
  g_line x_num (XF PI) c m l = Ok (c', m') -> made_motion c' m' -> is_arc_type (sm_type m') ->
  arc_axes (s_plane (g_st c')) = (a0, a1) ->
  (forall i, (i < 3)%nat -> ~ has_letter ws (fst (offset_letter i))) -> has_value ws cR (XF r) ->
  at_mm (s_cur (g_st c)) p -> at_mm (s_cur (g_st c')) q ->
  (let R := mm (s_unit (g_st c')) r in
  0 < dist2 (p a0) (p a1) (q a0) (q a1) <= sq (2 * R) ->
  exists c0 c1 sa da, arc_is m' a0 a1 c0 c1 (Rabs R) sa da /\
    dist2 c0 c1 (p a0) (p a1) = sq R /\ dist2 c0 c1 (q a0) (q a1) = sq R /\
    swept (is_cw (sm_type m')) c0 c1 (p a0) (p a1) (q a0) (q a1) sa da /\
    (0 < r -> Rabs da <= PI) /\ (r < 0 -> PI <= Rabs da) /\
    exists P, goes m' P p q /\ pa_arc P = Some (mkArc a0 a1 c0 c1 (Rabs R) sa da))%R.
Proof.
  intros c m l c' m' ws a0 a1 r p q LW RE E MM T AA NO HR HP HQ.
  apply (arc_radius_lemma c m l c' m' ws a0 a1 r p q); try assumption; [eapply reached_sized|eapply reached_finite]; eassumption.
Qed.
Print Assumptions C45_C46_radius_arc.
Example C45_radius_example : exists c m q, g_line x_num (XF PI) (gcode0 x_num) (sm_new x_num) (txt "G3X10R5F600") = Ok (c, m) /\
  made_motion c m /\ is_arc_type (sm_type m) /\ arc_axes (s_plane (g_st c)) = (0, 1)%nat /\ s_unit (g_st c) = G21 /\
  (forall i, (i < 3)%nat -> ~ has_letter radius_words (fst (offset_letter i))) /\ has_value radius_words cR (XF 5) /\
  at_mm (s_cur (g_st c)) q /\ (0 < dist2 0 0 (q 0%nat) (q 1%nat) <= sq (2 * 5))%R.
Proof.
  destruct radius_example as (c & m & E & MM & T). exists c, m. eexists. split; [exact E|]. split; [exact MM|]. split; [right; exact T|].
  destruct (modes_kept _ _ _ _ radius_read radius_consistent E) as (_ & -> & _ & ->); try no_word; try no_words.
  split; [reflexivity|]. split; [reflexivity|]. split; [intros i L; destruct i as [|[|[|i]]]; [no_letter..|lia]|].
  split; [a_word2|]. split; [exact (radius_end c m E MM)|]. cbv beta iota. unfold dist2, sq. lra.
Qed.

(** C47: refuted.  Lines with undefined behaviour: centre words on other motions read
    outside a three-element array; codes outside the range of uint32_t. *)
Theorem C47_no_ub_refuted : forall X l, In l ["G1 X1 I5 F100"; "G0 X1 R5"; "G4 P1 I1"; "G-1"; "G999999999"]%string -> run X [l] = UB.
Proof. exact w_ub. Qed.
Print Assumptions C47_no_ub_refuted.
(** True for programs of readable lines without I, J, K, R, in every reached state ... *)
Theorem C47_no_ub_partial : forall D (K : num D) pi c m ls, reached K pi c m ->
  Forall (fun l => exists ws, line_words K l ws /\ forall ch, In ch center_letters -> ~ has_letter ws ch) ls ->
  exists r, g_run K pi c m ls = Ok r.
Proof. intros. apply run_total; [eapply reached_sized; eassumption|assumption]. Qed.
Print Assumptions C47_no_ub_partial.
(** ... and for lines that are arcs. *)
Theorem C47_arc_partial : forall D (K : num D) pi c m l ws, reached K pi c m -> line_words K l ws ->
  ~ has ws cG 0 -> ~ has ws cG 10 -> ~ has ws cG 40 -> ~ has ws cG 530 ->
  (has ws cG 20 \/ has ws cG 30 \/ s_motion (g_st c) = G2 \/ s_motion (g_st c) = G3) ->
  exists r, g_line K pi c m l = Ok r.
Proof. intros D K pi c m l ws RE LW A B C E F. apply (line_total K pi c m l ws); [eapply reached_sized; eassumption|exact LW|]. right. auto. Qed.
Print Assumptions C47_arc_partial.
Example C47_example : line_words x_num (txt "G0X3Y4") linear_words /\ forall ch, In ch center_letters -> ~ has_letter linear_words ch.
Proof. split; [exact linear_read|]. intros ch I. cbn in I. repeat (destruct I as [<-|I]; [no_letter|]). destruct I. Qed.

(** C48: refuted.  A dwell repeats an incremental move, and executes axis words. *)
Theorem C48_dwell_position_refuted : forall X,
  (exists c m, run X ["G91"; "G0 X10"]%string = Ok (c, m) /\ s_cur (g_st c) = [num_f X 10; num_f X 0; num_f X 0]) /\
  (exists c m, run X ["G91"; "G0 X10"; "G4 P1"]%string = Ok (c, m) /\
     sm_type m = pauseAndResume /\ g_res c = OkContextUpdateAndMotion /\ s_cur (g_st c) = [num_f X 20; num_f X 0; num_f X 0]) /\
  (exists c m, run X ["G4 P1 X5"%string] = Ok (c, m) /\
     sm_type m = pauseAndResume /\ g_res c = OkContextUpdateAndMotion /\ s_cur (g_st c) = [num_f X 5; num_f X 0; num_f X 0]).
Proof. intros X. split; [exact (w_before_dwell X)|]. split; [exact (w_dwell_moves X)|exact (w_dwell_axis X)]. Qed.
Print Assumptions C48_dwell_position_refuted.
(** True in programs in the initial modes, for a dwell without axis words. *)
Theorem C48_dwell_position_partial : forall D (K : num D) pi c m l ws c' m', nadd K (nofZ K 0) (nofZ K 0) = nofZ K 0 ->
  plain_run K pi c m -> line_words K l ws -> g_line K pi c m l = Ok (c', m') -> no_frame_change ws ->
  (forall ch i g, In (ch, i, g) axis_letters -> ~ has_letter ws ch) ->
  forall ch i g, In (ch, i, g) axis_letters -> coord_at K (s_cur (g_st c')) i = coord_at K (s_cur (g_st c)) i.
Proof.
  intros D K pi c m l ws c' m' Z PR LW E NF NA ch i g I. apply (plain_unnamed K pi c m l ws c' m' ch i g); try assumption; [|exact (NA _ _ _ I)].
  split; [exact NF|]. intros _. exact NA.
Qed.
Print Assumptions C48_dwell_position_partial.

(** C49: refuted for G53. *)
Theorem C49_announced_refuted : forall X, exists c m, run X ["G53 G0 X10"%string] = Ok (c, m) /\
  sm_type m = traverse /\ s_cur (g_st c) = [num_f X 10; num_f X 0; num_f X 0] /\ g_res c = OkContextUpdateOnly.
Proof. exact w_G53. Qed.
Print Assumptions C49_announced_refuted.
Theorem C49_announced_partial : forall D (K : num D) pi c m l c' m' ws, line_words K l ws -> reached K pi c m ->
  g_line K pi c m l = Ok (c', m') -> ~ has ws cG 530 ->
  (g_res c' = OkContextUpdateAndMotion <-> made_motion c' m') /\
  (~ made_motion c' m' -> s_cur (g_st c') = s_cur (g_st c)).
Proof.
  intros D K pi c m l c' m' ws LW RE E N. pose proof (reached_sized _ _ _ _ RE) as SZ. split.
  - eapply announced_lemma; eassumption.
  - intros NM. destruct (join_lemma K pi c m l c' m' SZ E) as [(_ & X)|(X & _)]; [exact X|contradiction].
Qed.
Print Assumptions C49_announced_partial.
Example C49_run : forall X, exists c m, run X ["G21 G90 F600"; "G1 X10"; "Y10"; "X0"; "Y0"]%string = Ok (c, m) /\ g_res c = OkContextUpdateAndMotion.
Proof. intros X. destruct (w_square X) as (c & m & A & B & _). eauto. Qed.

(** C58: refuted.  RS274: G18 is the plane of Z and X, M7 mist, M8 flood coolant. *)
Theorem C58_standard_codes_refuted : forall X,
  (exists c m, run X ["G18 G2 Z10 I0 K5 J0 F600"%string] = Ok (c, m) /\
     g_res c = OkContextUpdateAndMotion /\ sm_arc0 m = 1%nat /\ sm_arc1 m = 2%nat) /\
  (exists c m, run X ["M8"; "G0 X1"]%string = Ok (c, m) /\ sm_mist m = true /\ sm_flood m = false).
Proof. intros X. split; [exact (w_G18 X)|exact (w_M8 X)]. Qed.
Print Assumptions C58_standard_codes_refuted.

(** C59: refuted.  An arc without centre words uses the centre of the previous arc; an
    omitted offset is the previous one; the end may be off the circle; a radius may be too short. *)
Theorem C59_arc_checked_refuted : forall X,
  (exists c m, run X ["G2 X10 I5 J0 F600"; "X20"]%string = Ok (c, m) /\
     g_res c = OkContextUpdateAndMotion /\ sm_start m = [num_f X 10; num_f X 0; num_f X 0] /\
     s_cur (g_st c) = [num_f X 20; num_f X 0; num_f X 0] /\ sm_center0 m = num_f X 5 /\ sm_radius m = num_f X 5) /\
  (exists c m, run X ["G2 X10 I5 J2 F600"; "X20 I5"]%string = Ok (c, m) /\
     g_res c = OkContextUpdateAndMotion /\ sm_center1 m = num_f X 2) /\
  (exists c m, run X ["G2 X20 I5 J0 F600"%string] = Ok (c, m) /\
     g_res c = OkContextUpdateAndMotion /\ g_err c = ENone /\ sm_center0 m = num_f X 5 /\ sm_center1 m = num_f X 0 /\
     sm_radius m = num_f X 5 /\ s_cur (g_st c) = [num_f X 20; num_f X 0; num_f X 0]) /\
  (exists c m, run X ["G2 X20 R5 F600"%string] = Ok (c, m) /\
     g_res c = OkContextUpdateAndMotion /\ g_err c = ENone /\ sm_center1 m = SpecFloat.S754_nan).
Proof.
  intros X. split; [exact (w_stale_center X)|]. split; [exact (w_stale_offset X)|]. split; [exact (w_off_circle X)|exact (w_short_radius X)].
Qed.
Print Assumptions C59_arc_checked_refuted.

(** C60.  Motions carry the spindle and coolant state. *)
Theorem C60_peripherals : forall D (K : num D) pi c m l c' m', reached K pi c m -> g_line K pi c m l = Ok (c', m') -> made_motion c' m' ->
  let s' := g_st c' in
  (sm_flood m' = true <-> s_flood s' = FloodM7) /\ (sm_mist m' = true <-> s_mist s' = MistM8) /\
  (s_spindle s' = M5 -> sm_spindle m' = nofZ K 0) /\
  (s_spindle s' <> M5 -> sm_spindle m' = letter K s' LtS /\ (sm_cw m' = true <-> s_spindle s' = M3)).
Proof. intros. eapply peripherals_lemma; try eassumption. eapply reached_sized; eassumption. Qed.
Print Assumptions C60_peripherals.
Example C60_run : forall X, exists c m, run X ["M8"; "G0 X1"]%string = Ok (c, m) /\ sm_mist m = true /\ sm_flood m = false.
Proof. exact w_M8. Qed.

(** C61: refuted.  No program can set a work offset. *)
Theorem C61_work_offsets_refuted : forall D (K : num D) pi c m, reached K pi c m -> s_wcs (g_st c) = s_wcs (gstate0 K).
Proof. exact @reached_wcs. Qed.
Print Assumptions C61_work_offsets_refuted.
Example C61_run : forall X, exists c m, run X ["G10 L2 P1 X5"%string] = Ok (c, m) /\ s_wcs (g_st c) = s_wcs (gstate0 (g_f X)).
Proof. exact w_G10. Qed.

(** C62.  A rejected block leaves the position; refuted that it has no effect. *)
Theorem C62_rejected_position : forall D (K : num D) pi c m l c' m', reached K pi c m -> g_line K pi c m l = Ok (c', m') ->
  g_res c' = RError -> s_cur (g_st c') = s_cur (g_st c).
Proof.
  intros D K pi c m l c' m' RE E R. destruct (join_lemma K pi c m l c' m' (reached_sized _ _ _ _ RE) E) as [(_ & X)|((_ & X) & _)]; [exact X|contradiction].
Qed.
Print Assumptions C62_rejected_position.
Theorem C62_rejected_no_effect_refuted : forall X, exists c m, run X ["G1 X10"%string] = Ok (c, m) /\ g_res c = RError /\
  s_motion (g_st c) = G1 /\ s_motion (gstate0 (g_f X)) = G0 /\
  letter (g_f X) (g_st c) LtX = num_f X 10 /\ letter (g_f X) (gstate0 (g_f X)) LtX = num_f X 0.
Proof. exact w_rejected. Qed.
Print Assumptions C62_rejected_no_effect_refuted.
