(** Stopping and resuming: planning of the current motion. *)
Require Import List Arith NArith ZArith Bool Reals Lra Lia.
From Verif Require Import Base EventModel StepModel StepSpec Num NumR MotionModel CtrlModel CtrlSpec.
From Verif Require Import CtrlRSpec CtrlTimeProofs ProfileSpec ProfileProofs GeomSpec GeomProofs PlanProofs JoinProofs RunSpec RunLegProofs RunTickProofs RunPlanProofs StopSpec.
Import ListNotations.
Open Scope R_scope.

(** *** What planning depends on *)
Record same_in (p q : profile xr) : Prop := {
  si_done : p_doneLength p = p_doneLength q /\ p_doneDuration p = p_doneDuration q;
  si_feed : p_vFeed p = p_vFeed q /\ p_vMax p = p_vMax q;
  si_max : p_aMax p = p_aMax q /\ p_dMax p = p_dMax q /\ p_jMax p = p_jMax q;
  si_left : ad_vStart (p_left p) = ad_vStart (p_left q);
  si_right : ad_vEnd (p_right p) = ad_vEnd (p_right q) }.
Lemma calc_same (p q : accdec xr) o : ad_vStart p = ad_vStart q -> ad_vEnd p = ad_vEnd q -> ad_aMax p = ad_aMax q -> ad_dMax p = ad_dMax q ->
  ad_jMax p = ad_jMax q -> ad_calculate x_num p o = ad_calculate x_num q o.
Proof. intros E1 E2 E3 E4 E5. unfold ad_calculate. rewrite E1, E2, E3, E4, E5. reflexivity. Qed.
Lemma calc_keeps (p : accdec xr) o : ad_vStart (ad_calculate x_num p o) = ad_vStart p /\ ad_vEnd (ad_calculate x_num p o) = ad_vEnd p.
Proof.
  unfold ad_calculate. destruct o; [split; reflexivity|]. cbv beta iota zeta.
  match goal with |- context [if ?b then _ else _] => destruct b end;
  match goal with |- context [if ?b then _ else _] => destruct b end; split; reflexivity.
Qed.
Lemma ramps_same p q v o : same_in p q -> p_left (p_ramps x_num p v o) = p_left (p_ramps x_num q v o) /\
  p_right (p_ramps x_num p v o) = p_right (p_ramps x_num q v o) /\ same_in (p_ramps x_num p v o) (p_ramps x_num q v o).
Proof.
  intros [[D1 D2] [F1 F2] (M1 & M2 & M3) L R].
  assert (E1 : p_left (p_ramps x_num p v o) = p_left (p_ramps x_num q v o)).
  { unfold p_ramps. cbn [p_left]. apply calc_same; cbn; auto. }
  assert (E2 : p_right (p_ramps x_num p v o) = p_right (p_ramps x_num q v o)).
  { unfold p_ramps. cbn [p_right]. apply calc_same; cbn; auto. }
  split; auto. split; auto. constructor; try (rewrite E1); try (rewrite E2); auto.
Qed.
Lemma plan_same p q len minS fo st : same_in p q -> p_plan x_num p len minS fo st = p_plan x_num q len minS fo st.
Proof. intros [[D1 D2] [F1 F2] (M1 & M2 & M3) L R]. unfold p_plan, p_vTri. rewrite D1, F1, F2, M1, M2, L, R. reflexivity. Qed.
Lemma optimize_same p q len minS fo st : same_in p q -> p_optimize x_num p len minS fo st = p_optimize x_num q len minS fo st.
Proof.
  intros SI. unfold p_optimize. rewrite (plan_same p q) by auto. destruct (p_plan x_num q len minS fo st) as [v o].
  destruct (ramps_same p q v o SI) as (E1 & E2 & S1). set (p1 := p_ramps x_num p v o) in *. set (q1 := p_ramps x_num q v o) in *.
  destruct (ramps_same p1 q1 v firstOrder S1) as (F1 & F2 & S2).
  destruct S1 as [[D1 D2] _ _ _ _]. rewrite E1, E2, D1.
  set (b := nltb _ _ _). set (p2 := if b then p_ramps x_num p1 v firstOrder else p1). set (q2 := if b then p_ramps x_num q1 v firstOrder else q1).
  assert (K : same_in p2 q2 /\ p_left p2 = p_left q2 /\ p_right p2 = p_right q2).
  { unfold p2, q2. destruct b; auto. split; auto. destruct (ramps_same p q v o SI) as (_ & _ & S1). exact S1. }
  destruct K as ([[K1 K2] [K3 K4] (K5 & K6 & K7) _ _] & K8 & K9).
  cbv zeta. rewrite K1, K2, K3, K4, K5, K6, K7, K8, K9. reflexivity.
Qed.
Lemma same_again p len minS fo st : same_in (p_optimize x_num p len minS fo st) p.
Proof.
  destruct (optimize_keeps p len minS fo st) as (Q1 & Q2 & Q3 & Q4 & Q5 & Q6).
  constructor; auto; [|apply optimize_left]. unfold p_optimize. destruct (p_plan x_num p len minS fo st) as [v o].
  cbv beta iota zeta. match goal with |- context [if ?b then _ else _] => destruct b end; split; reflexivity.
Qed.
(** Planning twice is planning once. *)
Lemma optimize_again p len minS fo st st' : p_optimize x_num (p_optimize x_num p len minS fo st) len minS fo st' = p_optimize x_num p len minS fo st'.
Proof. apply optimize_same, same_again. Qed.

(** *** Coming to rest *)
Lemma stop_lemma p len minS fo v0 a d j vm t0 s0 : plan_input p fo v0 0 a d j vm t0 s0 -> 0 <= vm ->
  v0 / 2 * (v0 / - d + - d / j) < len - s0 ->
  let q := p_optimize x_num p (XF len) minS fo minimizeSpeed in
  exists ts s1 s v acc, p_doneDuration q = XF t0 /\ ad_duration (p_left q) = XF (ts - t0) /\ p_tStop q = XF ts /\ p_duration q = XP /\
    t0 <= ts <= t0 + (v0 / - d + - d / j) /\ s1 < len /\ plan_spec v0 0 a d v0 t0 s0 ts s1 s v acc /\
    (forall t, t <= ts -> p_s x_num q (XF t) = XF (s t)) /\
    (forall t, ts < t -> p_s x_num q (XF t) = XF s1 /\ p_v x_num q (XF t) = XF 0).
Proof.
  intros PI HV ROOM. cbv zeta. set (q := p_optimize x_num p (XF len) minS fo minimizeSpeed).
  pose proof PI as [I0 I1 IA ID IJ IT IS IC Ha Hd Hj P0 P1].
  assert (BP : 0 < / - d) by (apply Rinv_0_lt_compat; lra).
  assert (JP : 0 < - d / j) by (apply Rmult_lt_0_compat; [lra|apply Rinv_0_lt_compat; lra]).
  assert (VD : 0 <= v0 / - d) by (apply Rmult_le_pos; lra).
  assert (DI : v0 * v0 / (2 * - d) <= v0 / 2 * (v0 / - d + - d / j)).
  { replace (v0 / 2 * (v0 / - d + - d / j)) with (v0 * v0 / (2 * - d) + v0 / 2 * (- d / j)) by (field; lra).
    assert (0 <= v0 / 2 * (- d / j)) by (apply Rmult_le_pos; lra). lra. }
  assert (D0 : 0 <= v0 * v0 / (2 * - d)).
  { apply Rmult_le_pos; [apply Rmult_le_pos; lra|apply Rlt_le, Rinv_0_lt_compat; lra]. }
  assert (LP : 0 < len - s0) by lra.
  assert (FE : feasible v0 0 a d (len - s0)).
  { split.
    - assert (0 <= v0 * v0) by (apply Rmult_le_pos; lra). assert (0 <= a * (len - s0)) by (apply Rmult_le_pos; lra). lra.
    - assert (K : v0 * v0 / (2 * - d) <= len - s0) by lra. apply Rmult_le_compat_r with (r := 2 * - d) in K; [|lra].
      replace (v0 * v0 / (2 * - d) * (2 * - d)) with (v0 * v0) in K by (field; lra). lra. }
  destruct (plan_any p len minS fo minimizeSpeed v0 0 a d j vm t0 s0 PI FE ltac:(lra) HV) as (vM & o & PL & VM & FL & _).
  cbn [target] in VM. rewrite Rmin_right in VM by lra. rewrite (Rmax_left 0 0) in VM by lra. assert (vM = 0) by lra. subst vM.
  destruct (optimize_phases p len minS fo minimizeSpeed 0 o v0 0 a d j t0 s0) as (o' & r1 & r3 & L2 & PH & L20 & SUM & DU & TS & _);
    auto; try lra. fold q in PH, DU, TS.
  pose proof (phases_stop _ _ _ _ _ _ _ _ _ _ _ _ (mkR 0 0 (- j) 0 0 0) PH) as FN.
  destruct PH as [M1 M3 G1 G3 MD [E1 E2]].
  pose proof (r_spec o' v0 0 a d j r1 P0 ltac:(lra) Ha Hd Hj G1) as S1.
  pose proof (r_spec o' 0 0 a d j r3 ltac:(lra) ltac:(lra) Ha Hd Hj G3) as S3.
  pose proof (rs_T _ _ _ _ _ _ _ _ _ _ _ S1) as T1P. pose proof (rs_avg _ _ _ _ _ _ _ _ _ _ _ S1) as AV1.
  pose proof (rs_avg _ _ _ _ _ _ _ _ _ _ _ S3) as AV3.
  pose proof (slow_time o' v0 0 a d j r1 Ha Hd Hj P0 G1) as ST. rewrite Rminus_0_r in ST.
  assert (L1 : r_L r1 <= v0 / 2 * (v0 / - d + - d / j)).
  { rewrite AV1. rewrite Rplus_0_r. apply Rmult_le_compat_l; lra. }
  assert (L2P : 0 < L2) by (rewrite AV3 in SUM; lra).
  assert (MT1 : ad_duration (p_left q) = XF (r_T r1)) by apply M1.
  assert (ML1 : ad_length (p_left q) = XF (r_L r1)) by apply M1.
  assert (XD : xdiv (XF L2) (XF 0) = XP).
  { cbn [xdiv]. destruct (Req_EM_T 0 0); [|lra]. unfold xsgn. destruct (Rlt_dec 0 L2); [reflexivity|lra]. }
  exists (t0 + r_T r1), (s0 + r_L r1), (ph_s 0 t0 s0 0 r1 (mkR 0 0 (- j) 0 0 0)), (ph_v 0 t0 0 r1 (mkR 0 0 (- j) 0 0 0)), (ph_a t0 0 r1 (mkR 0 0 (- j) 0 0 0)).
  split; auto. split. { rewrite MT1. f_equal. ring. }
  split. { rewrite TS. unfold reqb. destruct (Req_EM_T 0 0); [auto|lra]. }
  split. { rewrite DU, XD. reflexivity. }
  split; [lra|]. split; [lra|]. split.
  { pose proof (ph_plan o' v0 0 0 a d j t0 s0 0 r1 (mkR 0 0 (- j) 0 0 0) P0 ltac:(lra) ltac:(lra) Ha Hd Hj G1 (zero_ramp o' a d j Ha Hd) ltac:(lra) v0) as PP.
    assert (HH : Rmax v0 (Rmax 0 0) <= v0) by (apply Rmax_lub; [lra|apply Rmax_lub; lra]). specialize (PP HH).
    unfold r_T at 2 in PP. unfold r_L at 2 in PP. unfold r_T at 2 in PP. cbn [r_v0 r_v1 r_d1 r_d2] in PP.
    replace (t0 + r_T r1 + 0 + (0 + 0 + 0)) with (t0 + r_T r1) in PP by ring.
    match type of PP with plan_spec _ _ _ _ _ _ _ _ ?e _ _ _ => replace e with (s0 + r_L r1) in PP by field end. exact PP. }
  split. { intros t Ht. apply FN; auto. }
  intros t Ht. unfold p_s, p_v. rewrite E1, E2, MT1, ML1, MD. cbn [cr_duration cr_s cr_v cr_vMid]. rewrite XD.
  cbn [nleb x_num]. rewrite xleb_XF. rewrite !rleb_if. destruct (Rle_dec t t0); [lra|]. xs. rewrite xleb_XF, !rleb_if.
  destruct (Rle_dec (t - t0) (r_T r1)); [lra|].
  cbn [xleb xltb xeqb orb]. unfold cr_s, cr_v. cbn [cr_vMid]. xs. split; [f_equal; ring|reflexivity].
Qed.

(** *** Going on afterwards *)
Lemma resume_lemma q len minS fo a d j vm t0 ts s1 tR : p_doneDuration q = XF t0 -> ad_duration (p_left q) = XF (ts - t0) ->
  (forall t, ts < t -> p_s x_num q (XF t) = XF s1 /\ p_v x_num q (XF t) = XF 0) -> t0 <= ts < tR -> s1 < len ->
  ad_vEnd (p_right q) = XF 0 -> p_aMax q = XF a -> p_dMax q = XF d -> p_jMax q = XF j ->
  (if xltb (p_vMax q) (xmul (p_vFeed q) fo) then p_vMax q else xmul (p_vFeed q) fo) = XF vm -> 0 < a -> d < 0 -> 0 < j -> 0 < vm ->
  let p := p_replan_start x_num q (XF tR) in
  plan_input p fo 0 0 a d j vm tR s1 /\
  exists T s v acc, plan_spec 0 0 a d vm tR s1 T len s v acc /\ tR < T /\
    let q' := p_optimize x_num p (XF len) minS fo maximizeSpeed in
    p_duration q' = XF T /\ p_tStop q' = XP /\ (forall t, t <= T -> p_s x_num q' (XF t) = XF (s t) /\ p_v x_num q' (XF t) = XF (v t)).
Proof.
  intros E1 E2 AFT HT HS EV EA ED EJ EC Ha Hd Hj HV. cbv zeta. destruct (AFT tR ltac:(lra)) as [F1 F2].
  assert (PI : plan_input (p_replan_start x_num q (XF tR)) fo 0 0 a d j vm tR s1).
  { constructor; auto; try lra.
    rewrite (replan_start_s q tR t0 (ts - t0)) by (auto; right; lra). auto. }
  split; auto.
  assert (FE : feasible 0 0 a d (len - s1)).
  { unfold feasible. assert (0 < a * (len - s1)) by (apply Rmult_lt_0_compat; lra). assert (0 < - d * (len - s1)) by (apply Rmult_lt_0_compat; lra). lra. }
  destruct (optimize_lemma _ len minS fo maximizeSpeed 0 0 a d j vm tR s1 PI FE ltac:(lra) ltac:(lra))
    as (D1 & D2 & T & vM & s & v & acc & VB & VE & RCH & FN & PS & POS).
  cbn [target] in *. specialize (POS HV ltac:(lra)). destruct PS as [(_ & DU & TS & PS)|(Z & _)]; [|lra].
  rewrite Rmin_left, Rmax_left in VB by lra. rewrite (Rmax_left vM 0), (Rmax_right 0 vM) in PS by lra.
  exists T, s, v, acc. split. { eapply plan_cap; [exact PS|lra]. } split.
  { destruct (ps_time _ _ _ _ _ _ _ _ _ _ _ _ PS) as [|K]; auto. subst T.
    destruct (ps_start _ _ _ _ _ _ _ _ _ _ _ _ PS). destruct (ps_end _ _ _ _ _ _ _ _ _ _ _ _ PS). lra. }
  split; auto. split; auto. intros t Ht. destruct (FN t Ht) as (G1 & G2 & _). auto.
Qed.

Section Courses.
Variables (M : machine xr) (r : rmach) (w fo : R).
Notation A := x_arith.
Hypothesis MI : machine_is M r.
Hypothesis FO : 0 < fo.
Hypothesis W : 0 < w.

(** Item [h] holds motion [q], planned at time [b] of the motion, at rest, to
    go on and end; [l] is the motion as executed, before and after [b]. *)
Definition courses (b : R) (h : motion xr) (q : mp) (l : leg) : Prop :=
  is_move (mo_type h) = true /\ mo_traj h = traj_set A (fst q) /\ lg_path l = snd q /\
  exists p V a d vm s0 v acc, plan_input p (XF fo) 0 0 a d (rm_j r) vm b s0 /\ limits_ok r (snd q) V a d /\ 0 < vm <= V /\
    (forall x, sm_vFeed (fst q) = XF x -> vm <= x * fo) /\ 0 <= b < lg_T l /\ s0 < pa_len (snd q) /\
    mo_prof h = p_optimize x_num p (XF (pa_len (snd q))) (m_minS M) (XF fo) maximizeSpeed /\
    plan_spec 0 0 a d vm 0 0 (lg_T l) (pa_len (snd q)) (lg_s l) v acc /\
    p_duration (mo_prof h) = XF (lg_T l) /\ p_tStop (mo_prof h) = XP /\
    forall t, b <= t <= lg_T l -> p_s x_num (mo_prof h) (XF t) = XF (lg_s l t) /\ p_v x_num (mo_prof h) (XF t) = XF (v t).

Lemma courses_fine b h q l : exec r q -> courses b h q l -> leg_fine r (sm_vFeed (fst q)) fo l.
Proof.
  intros (_ & _ & OK & _) (_ & _ & EP & p & V & a & d & vm & s0 & v & acc & _ & LI & VM & FE & HB & _ & _ & PS & _).
  unfold leg_fine. rewrite EP. split; auto. split; [lra|]. exists V, a, d, vm, v, acc. auto.
Qed.
Lemma carries_lemma h (q : mp) l : exec r q -> is_move (mo_type h) = true -> mo_traj h = traj_set A (fst q) -> lg_path l = snd q ->
  (forall i s, (i < 3)%nat -> mo_position x_arith h i (XF s) = XF (path_pos (lg_path l) i s)) /\
  (forall i, (i < 3)%nat -> mo_isMoving x_arith h i = false -> forall s s', path_pos (lg_path l) i s = path_pos (lg_path l) i s').
Proof.
  intros (MV & DS & OK & FE & _) MH TR EP. rewrite EP. split.
  - intros i x Hi. apply (position_eq (fst q)); auto.
  - intros i Hi NM x y. rewrite (not_moving (fst q) (snd q) DS OK h i TR Hi NM x), (not_moving (fst q) (snd q) DS OK h i TR Hi NM y). auto.
Qed.

Lemma courses_runs b h q l : exec r q -> courses b h q l -> runs b h l.
Proof.
  intros EX (MH & TR & EP & p & V & a & d & vm & s0 & v & acc & _ & _ & _ & _ & _ & _ & _ & _ & DU & TS & FN).
  destruct (carries_lemma h q l EX MH TR EP) as [C1 C2]. constructor; auto. intros t Ht. apply FN; auto.
Qed.

Lemma ready_courses o q : exec r q -> ready M r fo maximizeSpeed o q ->
  exists l, lg_path l = snd q /\ leg_ok r (sm_vFeed (fst q)) fo l /\ courses 0 o q l.
Proof.
  intros EX RD. destruct (ready_runs M r fo o q EX RD) as (l & EP & LO & RU).
  destruct RD as [T1 T2 (p & V & a & d & vm & I & E)]. destruct (exec_len r q EX) as [EL LP].
  destruct I as [PI LI VM FB CP]. pose proof PI as [I0 I1 IA ID IJ IT IS IC Ha Hd Hj P0 P1].
  destruct (optimize_lemma p (pa_len (snd q)) (m_minS M) (XF fo) maximizeSpeed 0 0 a d (rm_j r) vm 0 0 PI (feas a d _ Ha Hd LP) ltac:(lra) ltac:(lra))
    as (D1 & D2 & t1 & vM & s & v & acc & VB & VE & RCH & FN & PS & POS).
  cbn [target] in *. specialize (POS ltac:(lra) ltac:(lra)). destruct PS as [(_ & DU & TS & PS)|(Z & _)]; [|lra].
  rewrite Rmin_left, Rmax_left in VB by lra. rewrite (Rmax_left vM 0), (Rmax_right 0 vM) in PS by lra.
  rewrite <- E in DU, TS, FN.
  assert (ET : lg_T l = t1) by (pose proof (ru_d _ _ _ RU) as K; rewrite DU in K; congruence). subst t1.
  assert (TP : 0 < lg_T l) by (destruct LO as (_ & TP & _); auto).
  exists (mkLeg (snd q) (lg_T l) s). cbn [lg_path lg_T lg_s]. split; auto. split.
  - split; cbn [lg_path lg_T lg_s]; [apply EX|]. split; auto. exists V, a, d, vM, v, acc. split; auto. split; [lra|].
    split. { intros x Ex. specialize (FB x Ex). lra. } split; auto. rewrite Rminus_0_r in VE.
    split. { destruct VE as [VE|VE]. - destruct CP as [CP|(x & CP & CQ)]; [left; lra|]. right; left. exists x. split; auto. lra.
      - right; right. rewrite <- VE. unfold flen. destruct (Rlt_dec 0 vM); [|lra]. destruct (Rlt_dec vM 0); [lra|]. field. lra. }
    split; auto. rewrite E in DU. eapply (rest_duration fo); eauto; lra.
  - split; auto. split; auto. split; auto. exists p, V, a, d, vm, 0, v, acc. cbn [lg_path lg_T lg_s].
    split; auto. split; auto. split; auto. split; auto. split; [lra|]. split; auto. split; auto. split; [eapply plan_cap; [exact PS|lra]|].
    split; auto. split; auto. intros t Ht. destruct (FN t ltac:(lra)) as (K1 & K2 & _). auto.
Qed.

(** Item [h], asked to stop at time [t], comes to rest at [ts] and stands still at
    [tR]; going on then, it executes [l]. *)
Record brakes (h : motion xr) (q : mp) (l : leg) (t ts tR : R) : Prop := {
  bk_type : is_move (mo_type h) = true;
  bk_traj : mo_traj h = traj_set A (fst q);
  bk_stop : p_tStop (mo_prof h) = XF ts;
  bk_dur : p_duration (mo_prof h) = XP;
  bk_s : forall y, t <= y <= tR -> p_s x_num (mo_prof h) (XF y) = XF (lg_s l y);
  bk_end : with_right_vEnd h (nofZ (aF A) 0) = h;
  bk_time : t <= ts < tR;
  bk_last : tR < lg_T l;
  bk_rest : forall y, ts <= y <= tR -> lg_s l y = lg_s l ts;
  bk_short : lg_s l ts < pa_len (lg_path l);
  bk_again : courses tR (mo_optimize_at A M h (XF fo) maximizeSpeed (XF tR)) q l }.

Lemma vEnd_same h : ad_vEnd (p_right (mo_prof h)) = XF 0 -> with_right_vEnd h (nofZ (aF A) 0) = h.
Proof.
  intro E. unfold with_right_vEnd. destruct h as [ty tr p pe]. cbn [mo_prof mo_type mo_traj mo_per] in *.
  destruct p as [x1 x2 x3 x4 ri x6 x7 x8 x9 x10 x11 x12]. cbn [p_right p_doneLength p_doneDuration p_left p_mid p_vFeed p_vMax p_aMax p_dMax p_jMax p_duration p_tStop] in *.
  do 2 f_equal. destruct ri. cbn in *. subst. reflexivity.
Qed.
Lemma courses_vEnd b h q l : courses b h q l -> with_right_vEnd h (nofZ (aF A) 0) = h.
Proof.
  intros (_ & _ & _ & p & V & a & d & vm & s0 & v & acc & PI & _ & _ & _ & _ & _ & EPR & _). apply vEnd_same.
  destruct (optimize_keeps p (XF (pa_len (snd q))) (m_minS M) (XF fo) maximizeSpeed) as (Q1 & _). destruct (same_again p (XF (pa_len (snd q))) (m_minS M) (XF fo) maximizeSpeed).
  rewrite EPR, si_right0. apply PI.
Qed.

Lemma last_tick t ts : t <= ts -> exists k, (1 <= k)%nat /\ ts < t + INR k * w <= ts + w.
Proof.
  intros H. destruct (archimed ((ts - t) / w)) as [U1 U2]. assert (P : 0 <= (ts - t) / w) by (apply Rmult_le_pos; [lra|apply Rlt_le, Rinv_0_lt_compat; auto]).
  assert (UP : (0 < up ((ts - t) / w))%Z) by (apply lt_IZR; lra).
  exists (Z.to_nat (up ((ts - t) / w))). split; [lia|]. rewrite INR_IZR_INZ, Z2Nat.id by lia. set (u := IZR (up ((ts - t) / w))) in *.
  assert (E : ts - t = (ts - t) / w * w) by (field; lra). set (x := (ts - t) / w) in *.
  assert (x * w < u * w) by (apply Rmult_lt_compat_r; lra). assert (u * w <= (x + 1) * w) by (apply Rmult_le_compat_r; lra). lra.
Qed.

Lemma stop_courses b h q l t : exec r q -> courses b h q l -> b <= t <= lg_T l -> room_to_stop h t ->
  exists l' ts tR k x, (1 <= k)%nat /\ tR = t + INR k * w /\ tR <= ts + w /\ lg_path l' = lg_path l /\ (forall y, y <= t -> lg_s l' y = lg_s l y) /\
    stop_time h t x /\ ts <= t + x /\
    brakes (mo_optimize_at A M h (XF fo) minimizeSpeed (XF t)) q l' t ts tR.
Proof.
  intros EX (MH & TR & EP & p & V & a & d & vm & s0 & v & acc & PI & LI & VM & FE & HB & HS & EPR & PS & DU & TS & FN) HT RM.
  destruct (exec_len r q EX) as [EL LP]. pose proof PI as [I0 I1 IA ID IJ IT IS IC Ha Hd Hj P0 P1].
  set (len := pa_len (snd q)) in *.
  assert (FS : feasible 0 0 a d (len - s0)).
  { unfold feasible. assert (0 < a * (len - s0)) by (apply Rmult_lt_0_compat; lra). assert (0 < - d * (len - s0)) by (apply Rmult_lt_0_compat; lra). lra. }
  destruct RM as (T0 & T1 & s & u & d' & j' & len' & R1 & R2 & R3 & R4 & R5 & R6 & R7 & R8 & R9).
  destruct (optimize_keeps p (XF len) (m_minS M) (XF fo) maximizeSpeed) as (Q1 & Q2 & Q3 & Q4 & Q5 & Q6).
  rewrite <- EPR in Q1, Q2, Q3, Q4, Q5, Q6.
  rewrite Q4, ID in R6. rewrite Q5, IJ in R7. rewrite TR, EL in R8. fold len in R8.
  destruct (FN t HT) as [F1 F2]. rewrite F1 in R4. rewrite F2 in R5.
  injection R4 as R4. injection R5 as R5. injection R6 as R6. injection R7 as R7. injection R8 as R8. subst s u d' j' len'.
  assert (DD : p_doneDuration (mo_prof h) = XF b).
  { rewrite EPR. destruct (same_again p (XF len) (m_minS M) (XF fo) maximizeSpeed) as [[_ K] _ _ _ _]. congruence. }
  rewrite DD in R1. injection R1 as <-.
  rewrite EPR in R2. assert (DU' := DU). assert (TS' := TS). rewrite EPR in DU', TS'.
  destruct (replan_lemma p len (m_minS M) (XF fo) maximizeSpeed 0 0 a d (rm_j r) vm b s0 (XF fo) minimizeSpeed vm t T1 PI FS ltac:(lra) ltac:(lra) IC ltac:(lra) R2 ltac:(lra) R3)
    as (sN & vN & G1 & G2 & PI' & FE' & HL' & _).
  { intros te [E|E]; [rewrite DU' in E|rewrite TS' in E]; inversion E; subst; lra. }
  rewrite <- EPR in G1, G2, PI'. rewrite F1 in G1. rewrite F2 in G2. injection G1 as <-. injection G2 as <-.
  set (p' := p_replan_start x_num (mo_prof h) (XF t)) in *.
  destruct (stop_lemma p' len (m_minS M) (XF fo) (v t) a d (rm_j r) vm t (lg_s l t) PI' ltac:(lra) R9)
    as (ts & s1 & sb & vb & ab & B1 & B2 & B3 & B4 & B5 & B6 & B7 & B8 & B9).
  set (pb := p_optimize x_num p' (XF len) (m_minS M) (XF fo) minimizeSpeed) in *.
  destruct (last_tick t ts ltac:(lra)) as (k & K1 & K2). set (tR := t + INR k * w) in *.
  destruct (optimize_keeps p' (XF len) (m_minS M) (XF fo) minimizeSpeed) as (O1 & O2 & O3 & O4 & O5 & O6). fold pb in O1, O2, O3, O4, O5, O6.
  pose proof PI' as [J0 J1 JA JD JJ JT JS JC _ _ _ _ _].
  destruct (resume_lemma pb len (m_minS M) (XF fo) a d (rm_j r) vm t ts s1 tR B1 B2 B9 ltac:(lra) B6 ltac:(congruence) ltac:(congruence) ltac:(congruence) ltac:(congruence)
    ltac:(rewrite (xmul_same_cap p' pb) by auto; auto) Ha Hd Hj ltac:(lra)) as (PIR & T & sr & vr & ar & PSR & TR' & X1 & X2 & X3).
  destruct (ps_vbound _ _ _ _ _ _ _ _ _ _ _ _ PS t ltac:(lra)) as [VB1 VB2].
  pose proof (plan_cut _ _ _ _ _ _ _ _ _ _ _ _ t PS ltac:(lra)) as C1.
  pose proof (plan_join _ _ _ _ _ _ _ _ _ _ _ _ _ _ _ _ _ _ C1 (plan_cap _ _ _ _ _ vm _ _ _ _ _ _ _ B7 ltac:(lra))) as C2.
  pose proof (plan_join _ _ _ _ _ _ _ _ _ _ _ _ _ _ _ _ _ _ C2 (plan_rest a d vm ts tR s1 Ha Hd ltac:(lra) ltac:(lra))) as C3.
  pose proof (plan_join _ _ _ _ _ _ _ _ _ _ _ _ _ _ _ _ _ _ C3 PSR) as C4.
  set (S4 := join tR (join ts (join t (lg_s l) sb) (fun _ => s1)) sr) in *.
  destruct (ps_start _ _ _ _ _ _ _ _ _ _ _ _ B7) as [SB0 _]. destruct (ps_end _ _ _ _ _ _ _ _ _ _ _ _ B7) as [SB1 _].
  destruct (ps_start _ _ _ _ _ _ _ _ _ _ _ _ PSR) as [SR0 VR0].
  assert (Y1 : forall y, y <= t -> S4 y = lg_s l y) by (intros y Hy; unfold S4; rewrite !join_le by lra; auto).
  assert (Y2 : forall y, t <= y <= ts -> S4 y = sb y).
  { intros y Hy. unfold S4. rewrite !(join_le tR), !(join_le ts) by lra. apply join_ge; lra. }
  assert (Y3 : forall y, ts <= y <= tR -> S4 y = s1).
  { intros y Hy. unfold S4. rewrite (join_le tR) by lra. destruct Hy as [[Hy|<-] _]; [apply join_gt; auto|].
    rewrite join_le by lra. rewrite join_ge by (auto; lra). auto. }
  assert (Y4 : forall y, tR <= y -> S4 y = sr y).
  { intros y [Hy|<-]; [apply join_gt; auto|]. rewrite Y3 by lra. auto. }
  exists (mkLeg (snd q) T S4), ts, tR, k, (v t / - d + - d / rm_j r). cbn [lg_path lg_T lg_s].
  split; auto. split; auto. split; [lra|]. split; auto. split; auto.
  split. { exists (v t), d, (rm_j r). repeat split; congruence. }
  split; [lra|].
  assert (HO : mo_optimize_at A M h (XF fo) minimizeSpeed (XF t) = mkMo (mo_type h) (mo_traj h) pb (mo_per h)).
  { unfold mo_optimize_at, mo_optimize. cbn [mo_type mo_traj mo_prof mo_per]. rewrite MH, TR, EL. reflexivity. }
  rewrite HO.
  assert (HO2 : mo_optimize_at A M (mkMo (mo_type h) (mo_traj h) pb (mo_per h)) (XF fo) maximizeSpeed (XF tR) =
     mkMo (mo_type h) (mo_traj h) (p_optimize x_num (p_replan_start x_num pb (XF tR)) (XF len) (m_minS M) (XF fo) maximizeSpeed) (mo_per h)).
  { unfold mo_optimize_at, mo_optimize. cbn [mo_type mo_traj mo_prof mo_per]. rewrite MH, TR, EL. reflexivity. }
  constructor; cbn [mo_type mo_traj mo_prof mo_per lg_path lg_T lg_s]; auto; try lra.
  - intros y Hy. destruct (Rle_dec y ts).
    + rewrite B8, Y2 by lra. auto.
    + destruct (B9 y ltac:(lra)) as [-> _]. rewrite Y3 by lra. auto.
  - apply vEnd_same. cbn [mo_prof]. congruence.
  - intros y Hy. rewrite !Y3 by lra. auto.
  - rewrite Y3 by lra. auto.
  - rewrite HO2. split; auto. split; auto. split; auto. cbn [mo_prof lg_T lg_s].
    exists (p_replan_start x_num pb (XF tR)), V, a, d, vm, s1. eexists _, _.
    split; [exact PIR|]. split; auto. split; auto. split; auto. split; [lra|]. split; auto. split; auto. split; [exact C4|].
    split; auto. split; auto. intros y Hy. destruct (X3 y ltac:(lra)) as [-> ->]. rewrite Y4 by lra. split; auto.
    f_equal. symmetry. destruct Hy as [[Hy|<-] _]; [apply join_gt; auto|]. rewrite join_le by lra.
    destruct (ps_end _ _ _ _ _ _ _ _ _ _ _ _ C3) as [_ ->]. auto.
Qed.
End Courses.
