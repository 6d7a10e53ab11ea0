(** Further properties of the G-code parser: C83-C85. *)
Require Import String List Arith NArith ZArith Bool.
From Verif Require Import Base Num NumSF MotionModel CtrlModel CtrlSpec GcodeModel GcodeSpec GcodeStopSpec GText GMeaningProofs GTotalProofs GLineProofs GWitness GStopProofs GStopWitness.
Import ListNotations.
Open Scope N_scope.

(** C83: refuted.  A line with M0, M1, M2, M30 or M60 neither pauses nor ends anything:
    the program hands over the same motions and ends in the same state as without the line. *)
Theorem C83_program_stop_refuted : forall D (K : num D) pi c m ls1 l ls2 ws c' m' outs, line_words K l ws -> only_words stop_words ws ->
  g_run K pi c m (ls1 ++ l :: ls2) = Ok (c', m', outs) ->
  exists c2 m2 outs2, g_run K pi c m (ls1 ++ ls2) = Ok (c2, m2, outs2) /\ motions_of outs2 = motions_of outs /\ g_st c2 = g_st c'.
Proof. intros D K pi c m ls1 l ls2 ws c' m' outs LW OW. exact (without_line K pi c m ls1 l ls2 (fun c m => stop_line K pi c m l ws LW OW) c' m' outs). Qed.
Print Assumptions C83_program_stop_refuted.
Example C83_words : forall X, Forall (fun t => exists w, line_words (g_f X) (txt t) [w] /\ only_words stop_words [w]) ["M0"; "M1"; "M2"; "M30"; "M60"]%string.
Proof. exact w_stop_words. Qed.
Example C83_run : forall X l, In l ["M0"; "M1"; "M2"; "M30"; "M60"]%string ->
  exists c m, run X ["G0 X1"; l; "G0 X5"]%string = Ok (c, m) /\ g_res c = OkContextUpdateAndMotion /\ s_cur (g_st c) = [num_f X 5; num_f X 0; num_f X 0].
Proof. exact w_stop_run. Qed.
(** True: such a line is accepted and changes nothing, so it is never taken for another word. *)
Theorem C83_stop_word_harmless_partial : forall D (K : num D) pi c m l ws, line_words K l ws -> only_words stop_words ws ->
  exists c', g_line K pi c m l = Ok (c', sm_with_type mt_none m) /\ g_st c' = g_st c /\ g_res c' = OkContextUpdateOnly /\ g_err c' = ENone.
Proof. intros D K pi c m l ws LW OW. destruct (stop_line K pi c m l ws LW OW) as (b & E). eexists. split; [exact E|repeat split]. Qed.
Print Assumptions C83_stop_word_harmless_partial.

(** C84: refuted.  Feed motions without a feed rate of their own: modal continuation and
    G53 without any F; in inverse time mode a second arc, and a continuation after G1. *)
Theorem C84_feed_rate_refuted : forall X,
  (forall ls, In ls [["G1 X10"; "X20"]; ["G53 G1 X10"]; ["G93"; "G1 X10 F2"; "X20"]]%string ->
     exists c m, run X ls = Ok (c, m) /\ made_motion c m /\ g_err c = ENone /\ sm_type m = feedLinear /\ sm_vFeed m = num_f X 0) /\
  (exists c m, run X ["G93"; "G2 X10 I5 J0 F2"; "G2 X20 I5 J0"]%string = Ok (c, m) /\ made_motion c m /\ g_err c = ENone /\
     s_feed (g_st c) = G93 /\ sm_type m = feedHelicalCW /\ letter (g_f X) (g_st c) LtF = num_f X 2) /\
  (exists c m, run X ["G93 F2"; "G1 X10"]%string = Ok (c, m) /\ made_motion c m /\ g_err c = ENone).
Proof. exact w_feed_rate. Qed.
Print Assumptions C84_feed_rate_refuted.
(** True for blocks with a G1 word: the feed rate is positive ... *)
Theorem C84_g1_feed_partial : forall D (K : num D) pi c m l c' m' ws, nltb K (nofZ K 0) (nofZ K 0) = false ->
  line_words K l ws -> reached K pi c m -> g_line K pi c m l = Ok (c', m') ->
  has ws cG 10 -> ~ dwell K ws -> ~ has ws cG 530 -> made_motion c' m' ->
  (exists f, active_feed K ws (letter K (g_st c) LtF) f /\ nltb K (nofZ K 0) f = true) \/
  (exists x, has_value ws cF x /\ nltb K (nofZ K 0) x = false) /\ nltb K (nofZ K 0) (letter K (g_st c) LtF) = true.
Proof. intros D K pi c m l c' m' ws Z LW RE. exact (g1_feed K pi c m l c' m' ws Z LW (reached_sized _ _ _ _ RE)). Qed.
Print Assumptions C84_g1_feed_partial.
(** ... and in inverse time mode the block after a G1 motion, if it has a G1 word, needs its own. *)
Theorem C84_inverse_time_partial : forall D (K : num D) pi c m l1 ws1 c1 m1 l2 ws2 c2 m2, nltb K (nofZ K 0) (nofZ K 0) = false ->
  reached K pi c m -> line_words K l1 ws1 -> g_line K pi c m l1 = Ok (c1, m1) ->
  has ws1 cG 10 -> ~ dwell K ws1 -> ~ has ws1 cG 530 -> made_motion c1 m1 -> s_feed (g_st c1) = G93 ->
  line_words K l2 ws2 -> g_line K pi c1 m1 l2 = Ok (c2, m2) -> consistent ws2 ->
  has ws2 cG 10 -> ~ has ws2 cG 40 -> ~ has ws2 cG 530 -> ~ has_letter ws2 cF ->
  ~ made_motion c2 m2 /\ g_res c2 = RError /\ s_cur (g_st c2) = s_cur (g_st c1).
Proof. intros D K pi c m l1 ws1 c1 m1 l2 ws2 c2 m2 Z RE. exact (g1_again K pi c m l1 ws1 c1 m1 l2 ws2 c2 m2 Z (reached_sized _ _ _ _ RE)). Qed.
Print Assumptions C84_inverse_time_partial.
Example C84_run : forall X, nltb (g_f X) (num_f X 0) (num_f X 0) = false /\
  (exists c m, run X ["G93"; "G1 X10 F2"]%string = Ok (c, m) /\ made_motion c m /\ s_feed (g_st c) = G93) /\
  (exists c m, run X ["G93"; "G1 X10 F2"; "G1 X20"]%string = Ok (c, m) /\ g_res c = RError /\ g_err c = InvalidFeedrate).
Proof. exact w_inverse. Qed.

(** C85: refuted.  M48 and M49 do not change the motions of any program, and the planner
    applies the feed override to them: F600 (10 mm/s) after M49 is planned at 20 mm/s with override 2. *)
Theorem C85_override_switch_refuted :
  (forall D (K : num D) pi c m ls1 l ls2 w c' m' outs, line_words K l [w] -> w_letter w = cM -> w_int w = 480 \/ w_int w = 490 ->
     g_run K pi c m (ls1 ++ ls2) = Ok (c', m', outs) ->
     exists c2 m2 outs2, g_run K pi c m (ls1 ++ l :: ls2) = Ok (c2, m2, outs2) /\ motions_of outs2 = motions_of outs) /\
  (forall X, let A := sf_arith X in exists c m, run X ["M49"; "G1 X100 F600"]%string = Ok (c, m) /\
     g_res c = OkContextUpdateAndMotion /\ s_over (g_st c) = M49 /\ sm_vFeed m = num_f X 10 /\
     cr_vMid (p_mid (mo_prof (mo_set A (cnc3axis A) (mo_zero A) m (nofZ (aF A) 2) maximizeSpeed))) = nofZ (aF A) 20).
Proof.
  split; [|exact w_override]. intros D K pi c m ls1 l ls2 w c' m' outs LW EL EI.
  exact (without_switch K pi c m ls1 l ls2 w LW EL EI c' m' outs).
Qed.
Print Assumptions C85_override_switch_refuted.
Example C85_words : forall X, exists w, line_words (g_f X) (txt "M49") [w] /\ w_letter w = cM /\ w_int w = 490.
Proof. exact w_M49. Qed.
