(** Concrete programs for C83-C85, run with the binary64 arithmetic of the compiled code. *)
Require Import String List Arith NArith ZArith Bool SpecFloat Lia.
From Verif Require Import Base Num NumSF MotionModel CtrlModel CtrlSpec GcodeModel GcodeSpec GcodeStopSpec GText GWitness.
Import ListNotations.
Local Open Scope string_scope.

Definition stop_texts := ["M0"; "M1"; "M2"; "M30"; "M60"].
Lemma w_stop_words : forall X, Forall (fun t => exists w, line_words (g_f X) (txt t) [w] /\ only_words stop_words [w]) stop_texts.
Proof.
  intros X. unfold stop_texts. repeat (apply Forall_cons; [eexists; split;
    [eexists; split; [vm_compute; reflexivity|reflexivity]|intros w [<-|[]]; vm_compute; tauto]|]). apply Forall_nil.
Qed.
Lemma w_stop_run : forall X l, In l stop_texts ->
  exists c m, run X ["G0 X1"; l; "G0 X5"] = Ok (c, m) /\ g_res c = OkContextUpdateAndMotion /\ s_cur (g_st c) = [num_f X 5; num_f X 0; num_f X 0].
Proof.
  intros X l H. unfold stop_texts in H. cbn [In] in H.
  repeat (destruct H as [<-|H]; [apply ok_two; vm_compute; repeat split|]). destruct H.
Qed.

Lemma w_feed_rate : forall X,
  (forall ls, In ls [["G1 X10"; "X20"]; ["G53 G1 X10"]; ["G93"; "G1 X10 F2"; "X20"]] ->
     exists c m, run X ls = Ok (c, m) /\ made_motion c m /\ g_err c = ENone /\ sm_type m = feedLinear /\ sm_vFeed m = num_f X 0) /\
  (exists c m, run X ["G93"; "G2 X10 I5 J0 F2"; "G2 X20 I5 J0"] = Ok (c, m) /\ made_motion c m /\ g_err c = ENone /\
     s_feed (g_st c) = G93 /\ sm_type m = feedHelicalCW /\ letter (g_f X) (g_st c) LtF = num_f X 2) /\
  (exists c m, run X ["G93 F2"; "G1 X10"] = Ok (c, m) /\ made_motion c m /\ g_err c = ENone).
Proof.
  intros X. split; [|split].
  - intros ls H. cbn [In] in H.
    repeat (destruct H as [<-|H]; [apply ok_two; vm_compute; repeat split; discriminate|]). destruct H.
  - apply ok_two. vm_compute. repeat split; try discriminate.
  - apply ok_two. vm_compute. repeat split; discriminate.
Qed.
Lemma w_inverse : forall X, nltb (g_f X) (num_f X 0) (num_f X 0) = false /\
  (exists c m, run X ["G93"; "G1 X10 F2"] = Ok (c, m) /\ made_motion c m /\ s_feed (g_st c) = G93) /\
  (exists c m, run X ["G93"; "G1 X10 F2"; "G1 X20"] = Ok (c, m) /\ g_res c = RError /\ g_err c = InvalidFeedrate).
Proof.
  intros X. split; [reflexivity|]. split; apply ok_two; vm_compute; repeat split; discriminate.
Qed.
Lemma w_override : forall X, let A := sf_arith X in exists c m, run X ["M49"; "G1 X100 F600"] = Ok (c, m) /\
  g_res c = OkContextUpdateAndMotion /\ s_over (g_st c) = M49 /\ sm_vFeed m = num_f X 10 /\
  cr_vMid (p_mid (mo_prof (mo_set A (cnc3axis A) (mo_zero A) m (nofZ (aF A) 2) maximizeSpeed))) = nofZ (aF A) 20.
Proof. intros X A. apply ok_two. vm_compute. repeat split. Qed.
Lemma w_M49 : forall X, exists w, line_words (g_f X) (txt "M49") [w] /\ w_letter w = cM /\ w_int w = 490%N.
Proof. intros X. eexists. split; [eexists; split; [vm_compute; reflexivity|reflexivity]|split; reflexivity]. Qed.
