(** Whole runs: planning of the queue by append and start. *)
Require Import List Arith NArith ZArith Bool Reals Lra Lia ZifyBool ZifyNat ZifyN.
From Verif Require Import Base BaseProofs EventModel StepModel StepSpec Num NumR MotionModel CtrlModel CtrlSpec CtrlProofs CtrlQueueProofs.
From Verif Require Import CtrlRSpec CtrlTrackProofs CtrlTimeProofs ProfileSpec ProfileProofs GeomSpec GeomProofs PlanProofs RunSpec RunLegProofs RunTickProofs.
Import ListNotations.
Open Scope R_scope.

Lemma optimize_left p len minS fo st : ad_vStart (p_left (p_optimize x_num p len minS fo st)) = ad_vStart (p_left p).
Proof.
  unfold p_optimize. destruct (p_plan x_num p len minS fo st) as [vM o].
  assert (K : forall p vM o, ad_vStart (p_left (p_ramps x_num p vM o)) = ad_vStart (p_left p)).
  { intros p0 vM0 o0. unfold p_ramps. cbn [p_left].
    unfold ad_calculate. destruct o0; [reflexivity|]. cbv beta iota zeta.
    match goal with |- context [if ?b then _ else _] => destruct b end;
    match goal with |- context [if ?b then _ else _] => destruct b end; reflexivity. }
  cbv beta iota zeta.
  match goal with |- context [if ?b then _ else _] => destruct b end; cbn [p_left]; rewrite ?K; auto.
Qed.

Lemma left_duration p len minS fo st v0 v1 a d j vm t0 s0 :
  plan_input p fo v0 v1 a d j vm t0 s0 -> feasible v0 v1 a d (len - s0) -> 0 <= len - s0 -> 0 <= vm ->
  exists T1, ad_duration (p_left (p_optimize x_num p (XF len) minS fo st)) = XF T1.
Proof.
  intros PI FE HL HV. pose proof PI as [I0 I1 IA ID IJ IT IS IC Ha Hd Hj P0 P1].
  destruct (plan_any p len minS fo st v0 v1 a d j vm t0 s0 PI FE HL HV) as (vM & o & PL & VM & FL & _).
  destruct (optimize_phases p len minS fo st vM o v0 v1 a d j t0 s0) as (o' & r1 & r3 & L2 & PH & _); auto; [lra|].
  destruct PH as [M1 _ _ _ _ _]. exists (r_T r1). apply M1.
Qed.

Section Plan.
Variables (M : machine xr) (r : rmach) (w fo : R).
Notation A := x_arith.
Hypothesis MI : machine_is M r.
Hypothesis FO : 0 < fo.

(** A profile that is ready to be planned from rest to rest. *)
Record input (f : xr) (P : path) (p : profile xr) (V a d vm : R) : Prop := {
  in_plan : plan_input p (XF fo) 0 0 a d (rm_j r) vm 0 0;
  in_lim : limits_ok r P V a d;
  in_vm : 0 < vm <= V;
  in_feed : forall x, f = XF x -> vm <= x * fo;
  in_cap : vm = V \/ exists x, f = XF x /\ vm = x * fo }.
Definition mp := (smotion xr * path)%type.
(** A queue item holding motion [m], planned from rest to rest with strategy [st]. *)
Record ready (st : motionStrategy) (o : motion xr) (q : mp) : Prop := {
  rd_type : is_move (mo_type o) = true;
  rd_traj : mo_traj o = traj_set A (fst q);
  rd_prof : exists p V a d vm, input (sm_vFeed (fst q)) (snd q) p V a d vm /\
    mo_prof o = p_optimize x_num p (XF (pa_len (snd q))) (m_minS M) (XF fo) st }.
Definition exec (q : mp) : Prop := executable r (fst q) (snd q).

Lemma exec_len q : exec q -> t_length (traj_set A (fst q)) = XF (pa_len (snd q)) /\ 0 < pa_len (snd q).
Proof. intros (_ & (D & _) & (P & _) & _). auto. Qed.

Lemma feas a d L : 0 < a -> d < 0 -> 0 < L -> feasible 0 0 a d (L - 0).
Proof. intros. unfold feasible. assert (0 < a * L) by (apply Rmult_lt_0_compat; auto). assert (0 < - d * L) by (apply Rmult_lt_0_compat; lra). lra. Qed.

(** Planning again. *)
Lemma input_again f P p V a d vm st : 0 < pa_len P -> input f P p V a d vm ->
  input f P (p_optimize x_num p (XF (pa_len P)) (m_minS M) (XF fo) st) V a d vm.
Proof.
  intros LP [PI LI VM FE CP]. pose proof PI as [I0 I1 IA ID IJ IT IS IC Ha Hd Hj P0 P1].
  destruct (optimize_lemma p (pa_len P) (m_minS M) (XF fo) st 0 0 a d (rm_j r) vm 0 0 PI (feas a d _ Ha Hd LP) ltac:(lra) ltac:(lra)) as (D1 & D2 & _).
  destruct (optimize_keeps p (XF (pa_len P)) (m_minS M) (XF fo) st) as (Q1 & Q2 & Q3 & Q4 & Q5 & Q6).
  constructor; auto. constructor; auto; try congruence.
  - rewrite optimize_left. auto.
  - rewrite (xmul_same_cap p) by auto. auto.
Qed.

Lemma input_at f P p V a d vm st : 0 < pa_len P -> input f P p V a d vm ->
  input f P (p_replan_start x_num (p_optimize x_num p (XF (pa_len P)) (m_minS M) (XF fo) st) (XF 0)) V a d vm.
Proof.
  intros LP [PI LI VM FE CP]. pose proof PI as [I0 I1 IA ID IJ IT IS IC Ha Hd Hj P0 P1].
  pose proof (feas a d _ Ha Hd LP) as FS.
  destruct (optimize_lemma p (pa_len P) (m_minS M) (XF fo) st 0 0 a d (rm_j r) vm 0 0 PI FS ltac:(lra) ltac:(lra)) as (D1 & D2 & t1 & vM & s & v & acc & _ & _ & _ & FN & PS & _).
  assert (LD : exists T1, ad_duration (p_left (p_optimize x_num p (XF (pa_len P)) (m_minS M) (XF fo) st)) = XF T1) by (eapply left_duration; eauto; lra).
  destruct LD as (T1 & LD).
  assert (HT : 0 <= t1 /\ s 0 = 0 /\ v 0 = 0).
  { destruct PS as [(_ & _ & _ & PS)|(_ & _ & _ & s1 & _ & PS)];
    destruct (ps_start _ _ _ _ _ _ _ _ _ _ _ _ PS); pose proof (ps_time _ _ _ _ _ _ _ _ _ _ _ _ PS); auto. }
  destruct HT as (HT & S0 & V0).
  destruct (replan_lemma p (pa_len P) (m_minS M) (XF fo) st 0 0 a d (rm_j r) vm 0 0 (XF fo) st vm 0 T1 PI FS ltac:(lra) ltac:(lra) IC ltac:(lra) LD ltac:(lra) ltac:(left; lra))
    as (sN & vN & E1 & E2 & PI' & _).
  { intros te [E|E]; destruct PS as [(_ & E' & E'' & _)|(_ & E' & E'' & _)]; rewrite ?E', ?E'' in E; try (inversion E; subst; auto; lra).
    - destruct E'' as [E''|E'']; rewrite E'' in E; discriminate. }
  destruct (FN 0 HT) as (F1 & F2 & _). rewrite F1 in E1. rewrite F2 in E2. inversion E1; inversion E2; subst.
  rewrite S0, V0 in PI'. constructor; auto.
Qed.

Lemma ready_input st o q : 0 < pa_len (snd q) -> ready st o q -> exists V a d vm, input (sm_vFeed (fst q)) (snd q) (mo_prof o) V a d vm.
Proof. intros LP [_ _ (p & V & a & d & vm & I & E)]. exists V, a, d, vm. rewrite E. apply input_again; auto. Qed.

Lemma ready_optimize st st' o q : exec q -> ready st o q -> ready st' (mo_optimize A M o (XF fo) st') q.
Proof.
  intros EX RD. destruct (exec_len q EX) as [EL LP]. destruct (ready_input st o q LP RD) as (V & a & d & vm & I).
  destruct RD as [T1 T2 _]. unfold mo_optimize. rewrite T1. constructor; cbn [mo_type mo_traj mo_prof]; auto.
  exists (mo_prof o), V, a, d, vm. split; auto. rewrite T2, EL. reflexivity.
Qed.

Lemma ready_optimize_at st st' o q : exec q -> ready st o q -> ready st' (mo_optimize_at A M o (XF fo) st' (XF 0)) q.
Proof.
  intros EX RD. destruct (exec_len q EX) as [EL LP]. destruct RD as [T1 T2 (p & V & a & d & vm & I & E)].
  unfold mo_optimize_at, mo_optimize. cbn [mo_type mo_traj mo_prof mo_per]. rewrite T1. constructor; cbn [mo_type mo_traj mo_prof]; auto.
  eexists _, V, a, d, vm. split; [|rewrite T2, EL; reflexivity]. rewrite E. apply input_at; auto.
Qed.

Lemma ready_vEnd st o q : exec q -> ready st o q -> with_right_vEnd o (nofZ (aF A) 0) = o.
Proof.
  intros EX RD. destruct (exec_len q EX) as [EL LP]. destruct (ready_input st o q LP RD) as (V & a & d & vm & [PI _ _ _ _]).
  pose proof (pi_v1 _ _ _ _ _ _ _ _ _ _ PI) as E. unfold with_right_vEnd. destruct o as [ty tr p pe]. cbn [mo_prof mo_type mo_traj mo_per] in *.
  destruct p as [x1 x2 x3 x4 ri x6 x7 x8 x9 x10 x11 x12]. cbn [p_right p_doneLength p_doneDuration p_left p_mid p_vFeed p_vMax p_aMax p_dMax p_jMax p_duration p_tStop] in *.
  do 2 f_equal. destruct ri. cbn in *. subst. reflexivity.
Qed.
Lemma ready_vStart st o q : exec q -> ready st o q -> with_left_vStart o (nofZ (aF A) 0) = o.
Proof.
  intros EX RD. destruct (exec_len q EX) as [EL LP]. destruct (ready_input st o q LP RD) as (V & a & d & vm & [PI _ _ _ _]).
  pose proof (pi_v0 _ _ _ _ _ _ _ _ _ _ PI) as E. unfold with_left_vStart. destruct o as [ty tr p pe]. cbn [mo_prof mo_type mo_traj mo_per] in *.
  destruct p as [x1 x2 le x4 x5 x6 x7 x8 x9 x10 x11 x12]. cbn [p_right p_doneLength p_doneDuration p_left p_mid p_vFeed p_vMax p_aMax p_dMax p_jMax p_duration p_tStop] in *.
  do 2 f_equal. destruct le. cbn in *. subst. reflexivity.
Qed.

Lemma set_ready o q st : exec q -> ready st (mo_set A M o (fst q) (XF fo) st) q.
Proof.
  intros EX. destruct (exec_len q EX) as [EL LP]. destruct EX as (MV & DS & OK & FE & _).
  destruct (limits_lemma' _ _ _ _ DS OK MI) as (V & a & d & LE & LO). destruct (lo_pos _ _ _ _ _ LO) as (VP & AP & DN).
  unfold mo_set. rewrite MV. unfold mo_optimize. cbn [mo_type mo_traj mo_prof mo_per]. rewrite MV.
  constructor; cbn [mo_type mo_traj mo_prof]; auto.
  assert (CAP : exists vm, 0 < vm <= V /\ (forall x, sm_vFeed (fst q) = XF x -> vm <= x * fo) /\ (vm = V \/ exists x, sm_vFeed (fst q) = XF x /\ vm = x * fo) /\
    (if xltb (XF V) (xmul (sm_vFeed (fst q)) (XF fo)) then XF V else xmul (sm_vFeed (fst q)) (XF fo)) = XF vm).
  { destruct FE as [E|(f & FP & E)]; rewrite E.
    - exists V. split; [lra|]. split; [intros; discriminate|]. split; [auto|]. cbn. unfold xsgn. destruct (Rlt_dec 0 fo); [reflexivity|lra].
    - cbn [xmul xltb]. unfold rltb. assert (0 < f * fo) by (apply Rmult_lt_0_compat; auto). destruct (Rlt_dec V (f * fo)).
      + exists V. split; [lra|]. split; [intros x E2; inversion E2; subst; lra|]. auto.
      + exists (f * fo). split; [lra|]. split; [intros x E2; inversion E2; subst; lra|]. split; eauto. }
  destruct CAP as (vm & V1 & V2 & V3 & CAP).
  exists (prof_setSpeed A M (mo_prof o) (traj_set A (fst q)) (fst q)), V, a, d, vm. split.
  - constructor; auto. unfold prof_setSpeed. rewrite LE. destruct MI as (JE & JP & _). constructor; cbn; auto; lra.
  - rewrite EL. reflexivity.
Qed.

(** How long a plan from rest to rest takes, in terms of its top speed. *)
Lemma rest_duration p len minS a d j vm t1 vM s v acc : plan_input p (XF fo) 0 0 a d j vm 0 0 -> 0 < len -> 0 < vm ->
  0 < vM <= vm -> (vM = vm \/ flen a d 0 vM + flen a d vM 0 = len) ->
  plan_spec 0 0 a d vM 0 0 t1 len s v acc -> (exists t, 0 <= t <= t1 /\ v t = vM) ->
  p_duration (p_optimize x_num p (XF len) minS (XF fo) maximizeSpeed) = XF t1 ->
  t1 <= 2 * len / vM.
Proof.
  intros PI HL HV VP VE PS (t & Ht & VT) DU. pose proof PI as [I0 I1 IA ID IJ IT IS IC Ha Hd Hj P0 P1].
  destruct (plan_any p len minS (XF fo) maximizeSpeed 0 0 a d j vm 0 0 PI (feas a d _ Ha Hd HL) ltac:(lra) ltac:(lra)) as (u & o & PL & UM & FL & AL & PO).
  cbn [target] in *. specialize (PO HV ltac:(lra)). rewrite (Rmin_left 0 0), (Rmax_left vm 0) in UM by lra.
  destruct (optimize_phases p len minS (XF fo) maximizeSpeed u o 0 0 a d j 0 0) as (o' & r1 & r3 & L2 & PH & L20 & SUM & DU' & _); auto; try lra.
  assert (FLN : forall x, 0 < x -> flen a d 0 x + flen a d x 0 = x * x * (/ (2 * a) + / (2 * - d))).
  { intros x Hx. unfold flen. destruct (Rlt_dec 0 x); [|lra]. destruct (Rlt_dec x 0); [lra|]. field. lra. }
  rewrite Rminus_0_r in *. rewrite FLN in FL, AL by lra. rewrite FLN in VE by lra.
  set (k := / (2 * a) + / (2 * - d)) in *.
  assert (KP : 0 < k). { unfold k. assert (0 < / (2 * a)) by (apply Rinv_0_lt_compat; lra). assert (0 < / (2 * - d)) by (apply Rinv_0_lt_compat; lra). lra. }
  assert (FL' : vM * vM * k <= len).
  { pose proof (ps_energy _ _ _ _ _ _ _ _ _ _ _ _ PS 0 t ltac:(lra) ltac:(lra)) as E1.
    pose proof (ps_energy _ _ _ _ _ _ _ _ _ _ _ _ PS t t1 ltac:(lra) ltac:(lra)) as E2.
    destruct (ps_start _ _ _ _ _ _ _ _ _ _ _ _ PS) as [S0 V0]. destruct (ps_end _ _ _ _ _ _ _ _ _ _ _ _ PS) as [S1 V1].
    rewrite VT, S0, V0 in E1. rewrite VT, S1, V1 in E2.
    assert (B1 : vM * vM / (2 * a) <= s t). { apply Rmult_le_reg_l with (2 * a); [lra|]. replace (2 * a * (vM * vM / (2 * a))) with (vM * vM) by (field; lra). lra. }
    assert (B2 : vM * vM / (2 * - d) <= len - s t). { apply Rmult_le_reg_l with (2 * - d); [lra|]. replace (2 * - d * (vM * vM / (2 * - d))) with (vM * vM) by (field; lra). lra. }
    unfold k. unfold Rdiv in B1, B2. lra. }
  assert (UE : u = vM).
  { assert (SQ : forall x y, 0 < x -> 0 < y -> x * x * k <= y * y * k -> x <= y).
    { intros x y Hx Hy H. apply Rmult_le_reg_r in H; [|auto]. apply Rnot_lt_le. intro L. assert (y * y < x * x) by (apply Rmult_le_0_lt_compat; lra). lra. }
    destruct VE as [VE|VE], AL as [AL|AL].
    - lra. - assert (vM <= u) by (apply SQ; lra). lra. - assert (u <= vM) by (apply SQ; lra). lra.
    - assert (vM <= u) by (apply SQ; lra). assert (u <= vM) by (apply SQ; lra). lra. }
  subst u. rewrite DU in DU'. cbn [xdiv] in DU'. destruct (Req_EM_T vM 0); [lra|]. cbn [xadd] in DU'. injection DU' as ET.
  pose proof (rs_avg _ _ _ _ _ _ _ _ _ _ _ (r_spec o' 0 vM a d j r1 ltac:(lra) ltac:(lra) Ha Hd Hj (ph_g1 _ _ _ _ _ _ _ _ _ _ _ _ _ PH))) as A1.
  pose proof (rs_avg _ _ _ _ _ _ _ _ _ _ _ (r_spec o' vM 0 a d j r3 ltac:(lra) ltac:(lra) Ha Hd Hj (ph_g3 _ _ _ _ _ _ _ _ _ _ _ _ _ PH))) as A3.
  apply Rmult_le_reg_r with vM; [lra|]. replace (2 * len / vM * vM) with (2 * len) by (field; lra). rewrite ET.
  replace ((0 + r_T r1 + L2 / vM + r_T r3) * vM) with (r_T r1 * vM + L2 + r_T r3 * vM) by (field; lra). lra.
Qed.

(** A ready item, planned to move, executes a leg. *)
Lemma ready_runs o q : exec q -> ready maximizeSpeed o q ->
  exists l, lg_path l = snd q /\ leg_ok r (sm_vFeed (fst q)) fo l /\ runs 0 o l.
Proof.
  intros EX [T1 T2 (p & V & a & d & vm & I & E)]. destruct (exec_len q EX) as [EL LP]. destruct EX as (MV & DS & OK & FE & _).
  destruct I as [PI LI VM FB CP]. pose proof PI as [I0 I1 IA ID IJ IT IS IC Ha Hd Hj P0 P1].
  destruct (optimize_lemma p (pa_len (snd q)) (m_minS M) (XF fo) maximizeSpeed 0 0 a d (rm_j r) vm 0 0 PI (feas a d _ Ha Hd LP) ltac:(lra) ltac:(lra))
    as (D1 & D2 & t1 & vM & s & v & acc & VB & VE & RCH & FN & PS & POS).
  cbn [target] in *. specialize (POS ltac:(lra) ltac:(lra)). destruct PS as [(_ & DU & TS & PS)|(Z & _)]; [|lra].
  assert (VM' : vM <= vm). { destruct VB as [_ VB]. rewrite Rmin_left in VB by lra. rewrite Rmax_left in VB by lra. auto. }
  rewrite (Rmax_left vM 0), (Rmax_right 0 vM) in PS by lra.
  destruct (ps_start _ _ _ _ _ _ _ _ _ _ _ _ PS) as [S0 _]. destruct (ps_end _ _ _ _ _ _ _ _ _ _ _ _ PS) as [S1 _].
  pose proof (ps_time _ _ _ _ _ _ _ _ _ _ _ _ PS) as TT.
  exists (mkLeg (snd q) t1 s). cbn [lg_path lg_T lg_s]. split; auto. split.
  - split; auto. cbn [lg_path lg_T lg_s]. split. { destruct TT as [|TT]; auto. subst t1. rewrite S0 in S1. lra. }
    exists V, a, d, vM, v, acc. split; auto. split; [lra|]. split. { intros x Ex. specialize (FB x Ex). lra. } split; auto.
    rewrite Rminus_0_r in VE.
    split. { destruct VE as [VE|VE]. - destruct CP as [CP|(x & CP & CQ)]; [left; lra|]. right; left. exists x. split; auto. lra.
      - right; right. rewrite <- VE. unfold flen. destruct (Rlt_dec 0 vM); [|lra]. destruct (Rlt_dec vM 0); [lra|]. field. lra. }
    split; auto. eapply rest_duration; eauto; lra.
  - constructor; cbn [lg_path lg_T lg_s].
    + rewrite E. auto.
    + rewrite E. auto.
    + intros t Ht. rewrite E. apply FN; lra.
    + intros i x Hi. apply (position_eq (fst q)); auto.
    + intros i Hi NM x y. rewrite (not_moving (fst q) (snd q) DS OK o i T2 Hi NM x), (not_moving (fst q) (snd q) DS OK o i T2 Hi NM y). auto.
Qed.
End Plan.
