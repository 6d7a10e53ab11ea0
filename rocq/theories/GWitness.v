(** Concrete programs, run with the binary64 arithmetic of the compiled code. *)
Require Import String List Arith NArith ZArith Bool SpecFloat Lia.
From Verif Require Import Base Num NumSF MotionModel GcodeModel GcodeSpec GText.
Import ListNotations.
Local Open Scope string_scope.

Notation run X ls := (after (g_f X) pi_f ls).
Notation num_f X z := (nofZ (g_f X) z).

Lemma ok_two {A B} (r : res (A * B)) (P : A -> B -> Prop) :
  match r with Ok (a, b) => P a b | UB => False end -> exists a b, r = Ok (a, b) /\ P a b.
Proof. destruct r as [[a b]|]; [eauto|tauto]. Qed.
Ltac wit := intros X; apply ok_two; vm_compute; repeat split; discriminate.

Lemma w_unknown : forall X, exists c m, run X ["T1 Q5 H5 G0 X1"] = Ok (c, m) /\ g_res c <> RError /\
  exists c' m', run X ["G0 X1"] = Ok (c', m') /\ g_st c' = g_st c /\ m' = m /\ g_res c' = g_res c.
Proof.
  intros X. apply ok_two. destruct (run X ["T1 Q5 H5 G0 X1"]) as [[c m]|] eqn:E; [|vm_compute in E; discriminate].
  split; [vm_compute in E; injection E as <- _; discriminate|]. apply ok_two. vm_compute in E. vm_compute.
  injection E as <- <-. repeat split.
Qed.
Definition sixteen := "T1 T2 T3 T4 T5 T6 T7 T8 T9 T10 T11 T12 T13 T14 T15 T16".
Lemma w_truncated : forall X, exists c m, run X [String.append sixteen " G0 X1"] = Ok (c, m) /\
  sm_type m = mt_none /\ s_cur (g_st c) = s_cur (gstate0 (g_f X)) /\ g_res c = OkContextUpdateOnly /\ g_err c = ENone.
Proof. wit. Qed.

Lemma w_G59_1 : forall X, exists c m, run X ["G54 G59.1"] = Ok (c, m) /\ g_res c = OkContextUpdateOnly /\ g_err c = ENone.
Proof. wit. Qed.
Lemma w_M48 : forall X, exists c m, run X ["M48 M49"] = Ok (c, m) /\ g_res c = OkContextUpdateOnly /\ g_err c = ENone.
Proof. wit. Qed.

Definition bad_lines := ["N-1"; "F-1"; "S-1"; "G4"; "G4 P-1"; "G10"; "G10 L2 P1"; "G33"; "M6 T1"; "Q1"].
Lemma w_unreported : forall X l, In l bad_lines ->
  exists c m, run X [l] = Ok (c, m) /\ g_res c = OkContextUpdateOnly /\ g_err c = ENone.
Proof.
  intros X l H. unfold bad_lines in H. cbn [In] in H.
  repeat (destruct H as [<-|H]; [apply ok_two; vm_compute; repeat split|]). destruct H.
Qed.
Lemma w_no_feed : forall X l, In l ["G2 X10 I5 J0"; "G3 X10 I5 J0"] ->
  exists c m, run X [l] = Ok (c, m) /\ g_res c = OkContextUpdateAndMotion /\ g_err c = ENone /\ sm_vFeed m = num_f X 0.
Proof.
  intros X l H. cbn [In] in H.
  repeat (destruct H as [<-|H]; [apply ok_two; vm_compute; repeat split|]). destruct H.
Qed.

Lemma w_dwell_modes : forall X, exists c m, run X ["G4 P1 G20 G91 G18 G55"] = Ok (c, m) /\
  g_res c = OkContextUpdateAndMotion /\ g_err c = ENone /\
  s_unit (g_st c) = G21 /\ s_dist (g_st c) = G90 /\ s_plane (g_st c) = G17 /\ s_coord (g_st c) = G54.
Proof. wit. Qed.

Lemma w_repeat : forall X, exists c m, run X ["G91"; "G1 X10 F600"; "Y5"] = Ok (c, m) /\
  g_res c = OkContextUpdateAndMotion /\ sm_delta m = [num_f X 10; num_f X 5; num_f X 0].
Proof. wit. Qed.
Lemma w_leak : forall X, exists c m, run X ["G1 X10"; "G1 Y5 F600"] = Ok (c, m) /\
  g_res c = OkContextUpdateAndMotion /\ sm_delta m = [num_f X 10; num_f X 5; num_f X 0].
Proof. wit. Qed.
Lemma w_leak_first : forall X, exists c m, run X ["G1 X10"] = Ok (c, m) /\ g_res c = RError /\ g_err c = InvalidFeedrate /\
  s_cur (g_st c) = s_cur (gstate0 (g_f X)) /\ sm_type m = feedLinear.
Proof. wit. Qed.
Lemma w_units : forall X, exists c m, run X ["G21 G0 X254"; "G20 Y1"] = Ok (c, m) /\
  g_res c = OkContextUpdateAndMotion /\ nltb (g_f X) (num_f X 6000) (nth 0 (sm_delta m) (num_f X 0)) = true.
Proof. wit. Qed.

Lemma w_ub : forall X l, In l ["G1 X1 I5 F100"; "G0 X1 R5"; "G4 P1 I1"; "G-1"; "G999999999"] -> run X [l] = UB.
Proof. intros X l H. cbn [In] in H. repeat (destruct H as [<-|H]; [vm_compute; reflexivity|]). destruct H. Qed.
Lemma w_ub_long : forall X, g_line (g_f X) pi_f (gcode0 (g_f X)) (sm_new (g_f X)) (repeat 88%N 256) = UB.
Proof. intros X. vm_compute. reflexivity. Qed.

Lemma w_dwell_moves : forall X, exists c m, run X ["G91"; "G0 X10"; "G4 P1"] = Ok (c, m) /\
  sm_type m = pauseAndResume /\ g_res c = OkContextUpdateAndMotion /\ s_cur (g_st c) = [num_f X 20; num_f X 0; num_f X 0].
Proof. wit. Qed.
Lemma w_before_dwell : forall X, exists c m, run X ["G91"; "G0 X10"] = Ok (c, m) /\ s_cur (g_st c) = [num_f X 10; num_f X 0; num_f X 0].
Proof. wit. Qed.

Lemma w_G53 : forall X, exists c m, run X ["G53 G0 X10"] = Ok (c, m) /\
  sm_type m = traverse /\ s_cur (g_st c) = [num_f X 10; num_f X 0; num_f X 0] /\ g_res c = OkContextUpdateOnly.
Proof. wit. Qed.

Lemma w_G18 : forall X, exists c m, run X ["G18 G2 Z10 I0 K5 J0 F600"] = Ok (c, m) /\
  g_res c = OkContextUpdateAndMotion /\ sm_arc0 m = 1%nat /\ sm_arc1 m = 2%nat.
Proof. wit. Qed.
Lemma w_M8 : forall X, exists c m, run X ["M8"; "G0 X1"] = Ok (c, m) /\ sm_mist m = true /\ sm_flood m = false.
Proof. wit. Qed.

Lemma w_stale_center : forall X, exists c m, run X ["G2 X10 I5 J0 F600"; "X20"] = Ok (c, m) /\
  g_res c = OkContextUpdateAndMotion /\ sm_start m = [num_f X 10; num_f X 0; num_f X 0] /\
  s_cur (g_st c) = [num_f X 20; num_f X 0; num_f X 0] /\ sm_center0 m = num_f X 5 /\ sm_radius m = num_f X 5.
Proof. wit. Qed.
Lemma w_stale_offset : forall X, exists c m, run X ["G2 X10 I5 J2 F600"; "X20 I5"] = Ok (c, m) /\
  g_res c = OkContextUpdateAndMotion /\ sm_center1 m = num_f X 2.
Proof. wit. Qed.
Lemma w_off_circle : forall X, exists c m, run X ["G2 X20 I5 J0 F600"] = Ok (c, m) /\
  g_res c = OkContextUpdateAndMotion /\ g_err c = ENone /\ sm_center0 m = num_f X 5 /\ sm_center1 m = num_f X 0 /\ sm_radius m = num_f X 5 /\
  s_cur (g_st c) = [num_f X 20; num_f X 0; num_f X 0].
Proof. wit. Qed.
Lemma w_short_radius : forall X, exists c m, run X ["G2 X20 R5 F600"] = Ok (c, m) /\
  g_res c = OkContextUpdateAndMotion /\ g_err c = ENone /\ sm_center1 m = S754_nan.
Proof. wit. Qed.
Lemma w_G10 : forall X, exists c m, run X ["G10 L2 P1 X5"] = Ok (c, m) /\ s_wcs (g_st c) = s_wcs (gstate0 (g_f X)).
Proof. wit. Qed.

(** codes with one decimal *)
Lemma w_codes : forall X, forallb (fun n => match int_of (g_f X) cG (number_of (g_f X) (tenth_text n)), int_of (g_f X) cG (number_of (g_f X) (whole_text (n / 10))) with
   | Ok a, Ok b => (a =? n)%N && (b =? n / 10 * 10)%N | _, _ => false end)
  (map N.of_nat (seq 0 2000)) = true.
Proof. intros X. vm_compute. reflexivity. Qed.

Lemma w_bad_F : forall X, exists c m, run X ["G1 X10 F600"; "G1 X20 F-5"] = Ok (c, m) /\
  g_res c = OkContextUpdateAndMotion /\ g_err c = ENone /\ s_cur (g_st c) = [num_f X 20; num_f X 0; num_f X 0].
Proof. wit. Qed.
Lemma w_dwell_axis : forall X, exists c m, run X ["G4 P1 X5"] = Ok (c, m) /\
  sm_type m = pauseAndResume /\ g_res c = OkContextUpdateAndMotion /\ s_cur (g_st c) = [num_f X 5; num_f X 0; num_f X 0].
Proof. wit. Qed.
Lemma w_rejected : forall X, exists c m, run X ["G1 X10"] = Ok (c, m) /\ g_res c = RError /\
  s_motion (g_st c) = G1 /\ s_motion (gstate0 (g_f X)) = G0 /\
  letter (g_f X) (g_st c) LtX = num_f X 10 /\ letter (g_f X) (gstate0 (g_f X)) LtX = num_f X 0.
Proof. wit. Qed.

(** Ordinary lines, for the examples. *)
Lemma w_layout : forall X, run X ["g0 x10 (first) y-2.5"] = run X ["G0X10Y-2.5"] /\ exists c m, run X ["G0X10Y-2.5"] = Ok (c, m) /\
  s_cur (g_st c) = [num_f X 10; ndiv (g_f X) (num_f X (-25)) (num_f X 10); num_f X 0].
Proof. intros X. split; [vm_compute; reflexivity|]. revert X. wit. Qed.
Lemma w_square : forall X, exists c m, run X ["G21 G90 F600"; "G1 X10"; "Y10"; "X0"; "Y0"] = Ok (c, m) /\
  g_res c = OkContextUpdateAndMotion /\ s_cur (g_st c) = [num_f X 0; num_f X 0; num_f X 0] /\
  sm_start m = [num_f X 0; num_f X 10; num_f X 0] /\ sm_vFeed m = num_f X 10.
Proof. wit. Qed.
Lemma w_modal : forall X, exists c m, run X ["G20 G91 G19 G55 M3 M7 G93 S100"] = Ok (c, m) /\ g_res c = OkContextUpdateOnly /\
  s_unit (g_st c) = G20 /\ s_dist (g_st c) = G91 /\ s_plane (g_st c) = G19 /\ s_coord (g_st c) = G55 /\
  s_spindle (g_st c) = M3 /\ s_flood (g_st c) = FloodM7 /\ s_feed (g_st c) = G93 /\ letter (g_f X) (g_st c) LtS = num_f X 100.
Proof. wit. Qed.
Lemma w_collide : forall X, exists c m, run X ["G20 G21"] = Ok (c, m) /\ g_res c = RError /\ g_err c = ModalGroupCollision /\
  exists c' m', run X ["G0 X1 X2"] = Ok (c', m') /\ g_res c' = RError /\ g_err c' = ValueWordCollision /\ s_cur (g_st c') = s_cur (gstate0 (g_f X)).
Proof.
  intros X. apply ok_two. destruct (run X ["G20 G21"]) as [[c m]|] eqn:E; [|vm_compute in E; discriminate].
  split; [vm_compute in E; injection E as <- _; reflexivity|]. split; [vm_compute in E; injection E as <- _; reflexivity|].
  apply ok_two. vm_compute. repeat split.
Qed.
Lemma w_zero : forall X, nadd (g_f X) (num_f X 0) (num_f X 0) = num_f X 0.
Proof. intros X. reflexivity. Qed.
