(** Witness programs for arcs given by their radius. *)
Require Import String List Arith NArith ZArith Bool Reals Lra Lia.
From Coq Require Import Floats.SpecFloat.
From Verif Require Import Base Num NumR NumSF MotionModel CtrlModel CtrlSpec GeomSpec ProfileSpec RunSpec GcodeModel GcodeSpec GcodeRSpec GText GWitness FloatSpec FloatRunSpec FloatProgSpec FloatArcSpec FloatBendSpec FloatRadiusSpec FloatJobProofs FloatOffsetProofs FloatReadProofs FloatTextProofs FloatBendProofs.
Import ListNotations.

Lemma half_run X : exists c m, run X ex_half = Ok (c, m) /\ g_res c = OkContextUpdateAndMotion /\ g_err c = ENone /\
  sm_type m = feedHelicalCW /\ sm_arc0 m = 0%nat /\ sm_arc1 m = 1%nat /\ sm_center0 m = S754_nan /\ sm_center1 m = S754_nan.
Proof.
  destruct (run X ex_half) as [[c m]|] eqn:E.
  2: { assert (Q : match run X ex_half with Ok _ => true | UB => false end = true) by (vm_compute; reflexivity). rewrite E in Q. discriminate. }
  exists c, m. split; [reflexivity|].
  assert (P : (g_res c, g_err c, sm_type m, sm_arc0 m, sm_arc1 m, sm_center0 m, sm_center1 m) =
    match run X ex_half with Ok (c, m) => (g_res c, g_err c, sm_type m, sm_arc0 m, sm_arc1 m, sm_center0 m, sm_center1 m) | UB => (OkContextUpdateOnly, ENone, mt_none, 0%nat, 0%nat, S754_zero false, S754_zero false) end) by (rewrite E; reflexivity).
  match type of P with _ = ?r => let y := eval vm_compute in r in change r with y in P end. injection P as P1 P2 P3 P4 P5 P6 P7. repeat split; assumption.
Qed.
Lemma half_circle X : exists c m, run X ex_half = Ok (c, m) /\ g_res c = OkContextUpdateAndMotion /\ g_err c = ENone /\ sm_type m = feedHelicalCW /\
  let A := sf_arith X in forall M o fo s i dist, (i < 2)%nat ->
    mo_position A (mo_set A M o m fo s) i dist = S754_nan /\ ntoZ (aF A) (nround (aF A) (mo_position A (mo_set A M o m fo s) i dist)) = None.
Proof.
  destruct (half_run X) as (c & m & E & R1 & R2 & T & A0 & A1 & C0 & C1). exists c, m. split; [exact E|]. split; [exact R1|]. split; [exact R2|]. split; [exact T|].
  cbv zeta. intros M o fo s i dist Hi.
  assert (P : mo_position (sf_arith X) (mo_set (sf_arith X) M o m fo s) i dist = S754_nan); [|rewrite P; split; reflexivity].
  assert (T1 : mo_traj (mo_set (sf_arith X) M o m fo s) = traj_set (sf_arith X) m) by (unfold mo_set; rewrite T; reflexivity).
  unfold mo_position. rewrite T1. assert (T2 : t_arc0 (traj_set (sf_arith X) m) = 0%nat /\ t_arc1 (traj_set (sf_arith X) m) = 1%nat /\ t_center0 (traj_set (sf_arith X) m) = S754_nan /\ t_center1 (traj_set (sf_arith X) m) = S754_nan).
  { unfold traj_set. cbn [t_arc0 t_arc1 t_center0 t_center1]. rewrite C0, C1. repeat split; assumption. }
  destruct T2 as (-> & -> & -> & ->). destruct i as [|[|i]]; [reflexivity..|lia].
Qed.
Open Scope R_scope.
Lemma long_words X : let d := nofZ (g_f X) in reached (g_f X) pi_f (gcode0 (g_f X)) (sm_new (g_f X)) /\
  exists c m ws q, line_words (g_f X) ex_long ws /\ g_line (g_f X) pi_f (gcode0 (g_f X)) (sm_new (g_f X)) ex_long = Ok (c, m) /\ made_motion c m /\ is_arc_type (sm_type m) /\ is_cw (sm_type m) = false /\
    arc_axes (s_plane (g_st c)) = (0, 1)%nat /\ s_unit (g_st c) = G21 /\
    (forall i, (i < 3)%nat -> ~ has_letter ws (fst (offset_letter i))) /\ has_value ws cR (d (-5)%Z) /\ float64 (d (-5)%Z) (-5) /\ sensible (-5) /\
    at64 X (s_cur (g_st (gcode0 (g_f X)))) (fun _ => 0) /\ at64 X (s_cur (g_st c)) q /\ q 0%nat = 3 /\ q 1%nat = 4 /\
    / 1000000 <= dist2 0 0 3 4 /\ 1000 * dist2 0 0 3 4 <= 3999 * sq (-5).
Proof.
  cbv zeta. destruct (prog_example X) as (_ & _ & _ & _ & _ & J6 & _ & J8 & _). split; [exact J6|].
  destruct (getBlock (g_f X) ex_long) as [b|] eqn:E; [|vm_compute in E; discriminate].
  destruct (g_line (g_f X) pi_f (gcode0 (g_f X)) (sm_new (g_f X)) ex_long) as [[c m]|] eqn:E2.
  2: { assert (Q : match g_line (g_f X) pi_f (gcode0 (g_f X)) (sm_new (g_f X)) ex_long with Ok _ => true | UB => false end = true) by (vm_compute; reflexivity). rewrite E2 in Q. discriminate. }
  exists c, m, (b_words b), (ex_at [3; 4; 0]%Z). split; [exists b; auto|]. split; [reflexivity|].
  assert (P : (s_plane (g_st c), s_unit (g_st c), s_cur (g_st c), sm_type m, g_res c) =
    match g_line (g_f X) pi_f (gcode0 (g_f X)) (sm_new (g_f X)) ex_long with Ok (c, m) => (s_plane (g_st c), s_unit (g_st c), s_cur (g_st c), sm_type m, g_res c) | UB => (G18, G21, [], mt_none, OkContextUpdateOnly) end) by (rewrite E2; reflexivity).
  match type of P with _ = ?r => let y := eval vm_compute in r in change r with y in P end. injection P as P1 P2 P3 P4 P5. vm_compute in E. injection E as <-.
  split. { split; [rewrite P4; discriminate|rewrite P5; discriminate]. } split; [rewrite P4; right; reflexivity|]. split; [rewrite P4; reflexivity|]. rewrite P1. split; [reflexivity|]. split; [exact P2|].
  split. { intros i Hi (w & I & EL). cbn [b_words In] in I. repeat (destruct I as [<-|I]; [destruct i as [|[|[|i]]]; try lia; vm_compute in EL; discriminate|]). destruct I. }
  split. { eexists. split; [do 3 right; left; reflexivity|]. split; vm_compute; reflexivity. }
  split; [apply (float64_lit X (-5)); lia|]. split; [right; rewrite Rabs_left; lra|].
  split. { intros i Hi. replace 0 with (ex_at [0; 0; 0]%Z i); [apply J8; auto|]. unfold ex_at. destruct i as [|[|[|i]]]; [reflexivity..|lia]. }
  split. { intros i Hi. rewrite P3. unfold ex_at. destruct i as [|[|[|i]]]; try lia; cbn [nth]; [exact (float64_lit X 3 ltac:(lia))|exact (float64_lit X 4 ltac:(lia))|exact (float64_lit X 0 ltac:(lia))]. }
  unfold ex_at, dist2, sq. cbn [nth]. split; [reflexivity|]. split; [reflexivity|]. lra.
Qed.
