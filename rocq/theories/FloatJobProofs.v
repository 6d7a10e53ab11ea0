(** binary32: queueing straight motions, starting, and running them. *)
Require Import List Arith NArith ZArith Bool Reals Lra Lia ZifyBool ZifyNat ZifyN.
From Coq Require Import Floats.SpecFloat.
From Flocq Require Import Zaux Raux Defs Generic_fmt FLT Float_prop Round_NE Ulp Round_pred Relative Plus_error BinarySingleNaN.
From Verif Require Import Base BaseProofs EventModel StepModel StepSpec Num NumR NumSF MotionModel CtrlModel CtrlSpec CtrlRSpec CtrlProofs CtrlTrackProofs CtrlQueueProofs CtrlTimeProofs RingProofs.
From Verif Require Import ProfileSpec GeomSpec PlanProofs RunSpec FloatSpec FloatRunSpec FloatProofs FloatClockProofs FloatTrackProofs FloatErrProofs FloatPlanProofs FloatMoveProofs FloatRunProofs FloatStartProofs.
Import ListNotations.
Open Scope R_scope.

(** *** Conversions *)
Lemma prec53 : FLX.Prec_gt_0 53. Proof. reflexivity. Qed.
Lemma max53 : Prec_lt_emax 53 1024. Proof. reflexivity. Qed.
Lemma valid_exp53 : Valid_exp (SpecFloat.fexp 53 1024). Proof. apply FLT_exp_valid. reflexivity. Qed.
Notation rnd53 := (round radix2 (SpecFloat.fexp 53 1024) ZnearestE).
Notation fin64 := (fin 53 1024).
Lemma fin_float64 x r : float64 x r -> fin64 x r.
Proof.
  intros (V & H). exists (SF2B x V). split; [apply B2SF_SF2B|]. split.
  - rewrite is_finite_SF2B. destruct x; try discriminate; reflexivity.
  - rewrite B2R_SF2B. destruct x as [s|s| |s m e]; try discriminate; cbn [sf_val] in H; injection H as <-; [reflexivity|].
    unfold SF2R, F2R. cbn [Fnum Fexp]. rewrite bpow_val. destruct s; cbn [cond_Zopp]; [|lra]. change (Z.neg m) with (- Z.pos m)%Z. rewrite opp_IZR. lra.
Qed.
Lemma cvt_fin x r : fin64 x r -> Rabs r <= 1000000000000 -> fin32 (sf_cvt 24 128 x) (rnd r).
Proof.
  intros F B. pose proof (small_le _ B) as S. pose proof (fin_value _ _ _ _ F) as V. destruct x as [s|s| |s m e]; try contradiction.
  - subst r. rewrite rnd_0. apply fin_zero.
  - cbn [sf_cvt]. assert (E : r = F2R (Float radix2 (if s then Z.neg m else Z.pos m) e)) by (subst r; unfold F2R; cbn [Fnum Fexp]; destruct s; reflexivity).
    rewrite E in S |- *. apply (fin_normalize _ _ prec24 max24). exact S.
Qed.
Lemma rnd53_err x : Rabs (rnd53 x - x) <= / 9007199254740992 * Rabs x + eta.
Proof.
  destruct (error_N_FLT radix2 (-1074) 53 prec53 (fun z => negb (Z.even z)) x) as (e & h & H1 & H2 & _ & H4).
  change (round radix2 (FLT_exp (-1074) 53) (Znearest (fun z : Z => negb (Z.even z))) x) with (rnd53 x) in H4.
  rewrite H4. replace (x * (1 + e) + h - x) with (x * e + h) by ring.
  eapply Rle_trans; [apply Rabs_triang|]. rewrite Rabs_mult.
  assert (Rabs e <= / 9007199254740992). { eapply Rle_trans; [exact H1|]. change (bpow radix2 (- (53) + 1)) with (/ 4503599627370496). lra. }
  assert (Rabs h <= eta).
  { eapply Rle_trans; [exact H2|]. apply Rle_trans with (1 * bpow radix2 (-100)).
    - apply Rmult_le_compat; [lra|apply bpow_ge_0|lra|apply bpow_le; lia].
    - unfold eta. change (bpow radix2 (-100)) with (/ 1267650600228229401496703205376). lra. }
  pose proof (Rabs_pos x). apply Rplus_le_compat; [|auto]. rewrite Rmult_comm. apply Rmult_le_compat_r; auto.
Qed.
Lemma small53 x : Rabs x <= 1000000000000 -> small 53 1024 x.
Proof.
  intro H. unfold small. pose proof (rnd53_err x) as E.
  assert (Rabs (rnd53 x) <= Rabs x + Rabs (rnd53 x - x)). { replace (rnd53 x) with (x + (rnd53 x - x)) at 1 by ring. apply Rabs_triang. }
  apply Rle_lt_trans with 2000000000000; [unfold eta in E; lra|]. apply Rlt_trans with (bpow radix2 100); [|apply bpow_lt; lia].
  change (bpow radix2 100) with 1267650600228229401496703205376. lra.
Qed.

(** *** Geometry: the length, the direction and the position of an axis. *)
Lemma len_near X M fo m len l : float64 (sm_length m) len -> 0 <= len <= 1048576 ->
  standing X (prof_setSpeed (sf_arith X) M (p_zero (aF (sf_arith X))) (traj_set (sf_arith X) m) m)
    (t_length (traj_set (sf_arith X) m)) fo (fl_a l) (fl_d l) (fl_j l) (fl_vm l) (fl_L l) ->
  / 20000 <= len <= 1048576 /\ Rabs (fl_L l - len) <= 2 * (eps * len).
Proof.
  intros F64 LR ST. destruct (sd_usual _ _ _ _ _ _ _ _ _ ST) as (_ & _ & _ & _ & UL). unfold usual in UL.
  pose proof (fin_float64 _ _ F64) as F.
  pose proof (sd_len _ _ _ _ _ _ _ _ _ ST) as FL. apply fin_float32 in FL. change (t_length (traj_set (sf_arith X) m)) with (sf_cvt 24 128 (sm_length m)) in FL.
  assert (B : Rabs len <= 1000000000000) by (rewrite Rabs_pos_eq; lra).
  pose proof (fin_unique _ _ _ _ _ FL (cvt_fin _ _ F B)) as E. pose proof (rnd_err len) as RE. rewrite <- E in RE.
  rewrite (Rabs_pos_eq len) in RE by lra. pose proof RE as RE'. apply Rabs_le_inv in RE'. unfold eps, eta in *. split; [lra|]. apply Rabs_le. lra.
Qed.

(** A component divided by the length. *)
Lemma ratio_fin x y d len : float64 x d -> float64 y len -> / 20000 <= len -> Rabs d <= len -> d = 0 \/ len <= 1000000000000000000000000 * Rabs d ->
  exists v, fin32 (sf_cvt 24 128 (SFdiv 53 1024 x y)) v /\ Rabs (v - d / len) <= 11/10 * eps /\ (v = 0 -> d = 0).
Proof.
  intros FD FY LB DB DN. set (q := d / len). 
  assert (QB : Rabs q <= 1). { unfold q, Rdiv. rewrite Rabs_mult, (Rabs_pos_eq (/ len)) by (left; apply Rinv_0_lt_compat; lra).
    apply (Rmult_le_reg_r len); [lra|]. rewrite Rmult_assoc, Rinv_l by lra. lra. }
  assert (F : fin64 (SFdiv 53 1024 x y) (rnd53 q)).
  { apply (fin_div _ _ prec53 max53); [apply fin_float64; auto|apply fin_float64; auto|lra|]. apply small53. unfold q in QB. lra. }
  pose proof (rnd53_err q) as E1. set (q1 := rnd53 q) in *. pose proof (rnd_err q1) as E2.
  assert (Q1 : Rabs q1 <= 1.001). { apply Rabs_le_inv in E1. unfold eta in E1. apply Rabs_le_inv in QB as QB'. apply Rabs_le. lra. }
  exists (rnd q1). split; [apply cvt_fin; auto; lra|]. split.
  - apply Rabs_le_inv in E1. apply Rabs_le_inv in E2. apply Rabs_le. unfold eps, eta in *. lra.
  - intro Z. destruct DN as [DN|DN]; auto. exfalso. rewrite Z in E2. 
    assert (QL : / 1000000000000000000000000 <= Rabs q).
    { unfold q, Rdiv. rewrite Rabs_mult, (Rabs_pos_eq (/ len)) by (left; apply Rinv_0_lt_compat; lra).
      apply (Rmult_le_reg_r len); [lra|]. rewrite Rmult_assoc, Rinv_l by lra. lra. }
    rewrite Rminus_0_l, Rabs_Ropp in E2. assert (Rabs q <= Rabs q1 + Rabs (q1 - q)). { replace q with (q1 - (q1 - q)) at 1 by ring. eapply Rle_trans; [apply Rabs_triang|]. rewrite Rabs_Ropp. lra. }
    unfold eps, eta in *. lra.
Qed.
(** A position [r] within 7/2 [eps * Z] of the exact one, [Z] bounding it. *)
Lemma steps_fin r y Z k B : 0 <= Z -> 0 < k -> Rabs y <= Z -> Rabs (r - y) <= 7/2 * (eps * Z) -> k * Z + 1 <= B -> B <= 1048576 ->
  Rabs (r * k) <= B /\ Rabs (r * k - k * y) <= 2 * slack B.
Proof.
  intros Z0 K0 YZ ER ZK BB. assert (0 <= Z * k) by (apply Rmult_le_pos; lra). split.
  - assert (RZ : Rabs r <= (1 + 7/2 * eps) * Z). { apply Rabs_le_inv in ER. apply Rabs_le_inv in YZ. unfold eps in *. apply Rabs_le. lra. }
    rewrite Rabs_mult, (Rabs_pos_eq k) by lra. apply Rle_trans with ((1 + 7/2 * eps) * Z * k); [apply Rmult_le_compat_r; lra|]. unfold eps. lra.
  - replace (r * k - k * y) with ((r - y) * k) by ring. rewrite Rabs_mult, (Rabs_pos_eq k) by lra.
    apply Rle_trans with (7/2 * (eps * Z) * k); [apply Rmult_le_compat_r; lra|]. unfold slack, eps. lra.
Qed.
(** A position along a line. *)
Lemma linear_fin X s g dist s0 q v x len k B : fin32 s (rnd s0) -> fin32 g v -> Rabs (v - q) <= 11/10 * eps -> Rabs q <= 1 -> float32 dist x ->
  / 20000 <= len -> Rabs x <= 11/10 * len -> 0 < k -> k * (Rabs s0 + 2 * len) + 1 <= B -> B <= 1048576 -> Rabs s0 + len <= 1048576 ->
  exists r, float32 (nadd (aF (sf_arith X)) s (nmul (aF (sf_arith X)) g dist)) r /\ Rabs (r * k) <= B /\ Rabs (r * k - k * (s0 + q * x)) <= 2 * slack B.
Proof.
  intros Fs Fv Ev QB FX LB XB KP RB BB RC.
  set (Z := Rabs s0 + 2 * len) in *. pose proof (Rabs_pos s0) as S0.
  (* the product *)
  assert (VX : Rabs (v * x - q * x) <= 11/10 * eps * (11/10 * len)).
  { rewrite <- Rmult_minus_distr_r, Rabs_mult. apply Rmult_le_compat; auto using Rabs_pos. }
  assert (QX : Rabs (q * x) <= 11/10 * len). { rewrite Rabs_mult. rewrite <- (Rmult_1_l (11/10 * len)). apply Rmult_le_compat; auto using Rabs_pos. }
  assert (VXB : Rabs (v * x) <= 12/10 * len). { apply Rabs_le_inv in VX. apply Rabs_le_inv in QX. unfold eps in VX. apply Rabs_le. lra. }
  pose proof (rnd_err (v * x)) as E1. pose proof (rnd_err s0) as E2. set (p1 := rnd (v * x)) in *. set (s1 := rnd s0) in *.
  assert (FP : fin32 (nmul (aF (sf_arith X)) g dist) p1).
  { apply (fin_mul _ _ prec24 max24); auto; [apply fin_float32; auto|apply small_le; lra]. }
  assert (E1' : Rabs (p1 - v * x) <= eps * (12/10 * len) + eta) by (eapply Rle_trans; [exact E1|]; apply Rplus_le_compat_r, Rmult_le_compat_l; [unfold eps; lra|auto]).
  assert (SUM : Rabs (s1 + p1) <= 1.01 * Z).
  { apply Rabs_le_inv in E1'. apply Rabs_le_inv in E2. apply Rabs_le_inv in VXB. pose proof (Rle_abs s0). pose proof (Rle_abs (- s0)). rewrite Rabs_Ropp in H0. unfold Z, eps, eta in *. apply Rabs_le. lra. }
  pose proof (rnd_err (s1 + p1)) as E3. set (r := rnd (s1 + p1)) in *.
  assert (ER : Rabs (r - (s0 + q * x)) <= 7/2 * (eps * Z)).
  { assert (E3' : Rabs (r - (s1 + p1)) <= eps * (1.01 * Z) + eta) by (eapply Rle_trans; [exact E3|]; apply Rplus_le_compat_r, Rmult_le_compat_l; [unfold eps; lra|auto]).
    apply Rabs_le_inv in E1'. apply Rabs_le_inv in E2. apply Rabs_le_inv in E3'. apply Rabs_le_inv in VX. unfold Z, eps, eta in *. apply Rabs_le. lra. }
  exists r. split; [apply fin_float32; apply (fin_add _ _ prec24 max24); auto; apply small_le; unfold Z in *; lra|].
  apply (steps_fin r _ Z); auto; [unfold Z; lra|].
  apply Rabs_le_inv in QX. pose proof (Rle_abs s0). pose proof (Rle_abs (- s0)). rewrite Rabs_Ropp in H0. unfold Z. apply Rabs_le. lra.
Qed.

Section Geom.
Variables (X : sf_funs) (M : machine sf) (fo : sf) (u : funit) (m : smotion sf) (P : path) (l : flimits).
Notation A := (sf_arith X).
Notation K := (aF A).
Hypothesis S : straight X M fo u m P l.
Notation len := (pa_len P).

Lemma len_ok : / 20000 <= len <= 1048576 /\ Rabs (fl_L l - len) <= 2 * (eps * len).
Proof.
  destruct (sg_range _ _ _ _ _ _ _ S 0%nat ltac:(lia)) as (_ & _ & RB). pose proof (Rabs_pos (pa_start P 0)).
  destruct (sg_delta _ _ _ _ _ _ _ S 0%nat ltac:(lia)) as (_ & DB & _). pose proof (Rabs_pos (pa_delta P 0)).
  eapply len_near; [apply S|lra|apply S].
Qed.

Lemma dir_fin i : (i < 3)%nat -> exists v, fin32 (nthF A (t_dRT (traj_set A m)) i) v /\ Rabs (v - pa_delta P i / len) <= 11/10 * eps /\ (v = 0 -> pa_delta P i = 0).
Proof.
  intro Hi. destruct len_ok as (LB & _). destruct (sg_delta _ _ _ _ _ _ _ S i Hi) as (FD & DB & DN). destruct (sg_line _ _ _ _ _ _ _ S) as (_ & A0 & A1).
  assert (E : nthF A (t_dRT (traj_set A m)) i = sf_cvt 24 128 (SFdiv 53 1024 (nthD A (sm_delta m) i) (sm_length m))).
  { unfold traj_set. cbn [t_dRT]. rewrite A0, A1. destruct i as [|[|[|i]]]; [reflexivity..|lia]. }
  rewrite E. apply ratio_fin; auto; [apply S|lra].
Qed.

Lemma start_fin i : (i < 3)%nat -> fin32 (nthF A (t_start (traj_set A m)) i) (rnd (pa_start P i)).
Proof.
  intro Hi. assert (E : nthF A (t_start (traj_set A m)) i = sf_cvt 24 128 (nthD A (sm_start m) i)) by (destruct i as [|[|[|i]]]; [reflexivity..|lia]).
  rewrite E. apply cvt_fin; [apply fin_float64, S; auto|]. destruct (sg_range _ _ _ _ _ _ _ S i Hi) as (_ & _ & RB). destruct len_ok. lra.
Qed.

Lemma pos_fin o i dist x : fu_B u <= 1048576 -> mo_traj o = traj_set A m -> (i < 3)%nat -> float32 dist x -> Rabs x <= 11/10 * len -> 0 < fu_k u i ->
  exists r, float32 (mo_position A o i dist) r /\ Rabs (r * fu_k u i) <= fu_B u /\ Rabs (r * fu_k u i - fu_k u i * path_pos P i x) <= 2 * slack (fu_B u).
Proof.
  intros BB EO Hi FX XB KP. destruct len_ok as (LB & _). destruct (dir_fin i Hi) as (v & Fv & Ev & _). pose proof (start_fin i Hi) as Fs.
  destruct (sg_line _ _ _ _ _ _ _ S) as (AN & A0 & A1). destruct (sg_range _ _ _ _ _ _ _ S i Hi) as (RB & _ & RC). destruct (sg_delta _ _ _ _ _ _ _ S i Hi) as (_ & DB & _).
  assert (EP : mo_position A o i dist = nadd K (nthF A (t_start (traj_set A m)) i) (nmul K (nthF A (t_dRT (traj_set A m)) i) dist)).
  { unfold mo_position. rewrite EO. cbn [traj_set t_arc0 t_arc1]. rewrite A0, A1. destruct (Nat.eqb_spec i 3); [lia|]. reflexivity. }
  rewrite EP. unfold path_pos. rewrite AN. unfold linear_pos. replace (pa_delta P i * (x / len)) with (pa_delta P i / len * x) by (field; lra).
  apply linear_fin with (v := v) (len := len); auto; try lra.
  unfold Rdiv. rewrite Rabs_mult, (Rabs_pos_eq (/ len)) by (left; apply Rinv_0_lt_compat; lra).
  apply (Rmult_le_reg_r len); [lra|]. rewrite Rmult_assoc, Rinv_l by lra. lra.
Qed.

Lemma line_lin i x y : (i < 3)%nat -> Rabs (path_pos P i x - path_pos P i y) <= 1 * Rabs (x - y).
Proof.
  intro Hi. destruct len_ok as (LB & _). destruct (sg_line _ _ _ _ _ _ _ S) as (AN & _ & _). destruct (sg_delta _ _ _ _ _ _ _ S i Hi) as (_ & DB & _).
  unfold path_pos. rewrite AN. unfold linear_pos.
  match goal with |- Rabs ?z <= _ => replace z with (pa_delta P i * / len * (x - y)) by (field; lra) end.
  rewrite Rabs_mult. apply Rmult_le_compat_r; [apply Rabs_pos|].
  rewrite Rabs_mult, (Rabs_pos_eq (/ len)) by (left; apply Rinv_0_lt_compat; lra).
  apply (Rmult_le_reg_r len); [lra|]. rewrite Rmult_assoc, Rinv_l, Rmult_1_r, Rmult_1_l by lra. exact DB.
Qed.
Lemma line_fixed o i x y : mo_traj o = traj_set A m -> (i < 3)%nat -> mo_isMoving A o i = false -> path_pos P i x = path_pos P i y.
Proof.
  intros EO Hi HM. unfold mo_isMoving in HM. rewrite EO in HM. destruct (dir_fin i Hi) as (r & Fr & _ & RZ).
  rewrite (K_eqb X _ _ r 0 Fr) in HM by (apply (fin_lit X 0); lia). assert (E : pa_delta P i = 0) by (apply RZ; destruct (Req_bool_spec r 0); auto; discriminate).
  destruct (sg_line _ _ _ _ _ _ _ S) as (AN & _ & _). unfold path_pos. rewrite AN. unfold linear_pos. rewrite E. ring.
Qed.
End Geom.

(** *** What is needed of a motion, whatever its shape. *)
Record carried (X : sf_funs) (M : machine sf) (fo : sf) (u : funit) (m : smotion sf) (P : path) (l : flimits) (c : R) : Prop := {
  cd_move : is_move (sm_type m) = true;
  cd_plan : standing X (prof_setSpeed (sf_arith X) M (p_zero (aF (sf_arith X))) (traj_set (sf_arith X) m) m)
    (t_length (traj_set (sf_arith X) m)) fo (fl_a l) (fl_d l) (fl_j l) (fl_vm l) (fl_L l);
  cd_len : / 20000 <= pa_len P <= 1048576 /\ Rabs (fl_L l - pa_len P) <= 2 * (eps * pa_len P);
  cd_brief : 3 * pa_len P <= fl_vm l * fu_T u /\ 3 * pa_len P * (/ fl_a l + / fl_d l) <= fu_T u * fu_T u;
  cd_long : 5 * (fl_vm l * tick_gap (fu_W u) (fu_T u)) <= pa_len P;
  cd_lin : 0 <= c /\ forall i x y, (i < 3)%nat -> Rabs (path_pos P i x - path_pos P i y) <= c * Rabs (x - y);
  cd_pos : forall o i dist x, mo_traj o = traj_set (sf_arith X) m -> (i < 3)%nat -> float32 dist x -> Rabs x <= 11/10 * pa_len P ->
    exists r, float32 (mo_position (sf_arith X) o i dist) r /\ Rabs (r * fu_k u i) <= fu_B u /\ Rabs (r * fu_k u i - fu_k u i * path_pos P i x) <= 2 * slack (fu_B u);
  cd_fixed : forall o i x y, mo_traj o = traj_set (sf_arith X) m -> (i < 3)%nat -> mo_isMoving (sf_arith X) o i = false -> path_pos P i x = path_pos P i y;
  cd_steps : forall i, (i < 3)%nat -> fu_k u i * (c * pa_len P) <= fu_H u;
  cd_rate : forall i, (i < 3)%nat -> fu_k u i * (c * (fl_vm l * tick_gap (fu_W u) (fu_T u))) <= 1;
  cd_soft : forall i, (i < 3)%nat -> fu_k u i * (c * (fl_a l * (last_gap (fu_W u) (fu_T u) * last_gap (fu_W u) (fu_T u)))) <= 1/20 /\
    fu_k u i * (c * (fl_d l * (last_gap (fu_W u) (fu_T u) * last_gap (fu_W u) (fu_T u)))) <= 1/20 }.
Lemma straight_carried X M fo u m P l : funit_ok X M u -> straight X M fo u m P l -> carried X M fo u m P l 1.
Proof.
  intros UO S. pose proof (fu_large _ _ _ UO) as (LB1 & LB2). constructor; try apply S.
  - exact (len_ok X M fo u m P l S).
  - split; [lra|]. intros. now apply (line_lin X M fo u m P l S).
  - intros. apply (pos_fin X M fo u m P l S); auto. apply LB1. apply (fu_steps _ _ _ UO i); auto.
  - intros o i x y EO Hi HM. now apply (line_fixed X M fo u m P l S o).
  - intros i Hi. rewrite Rmult_1_l. apply (sg_range _ _ _ _ _ _ _ S i Hi).
  - intros i Hi. rewrite Rmult_1_l. apply (sg_rate _ _ _ _ _ _ _ S i Hi).
  - intros i Hi. rewrite !Rmult_1_l. apply (sg_soft _ _ _ _ _ _ _ S i Hi).
Qed.

(** *** Planned motions run as required. *)
Section Job.
Variables (X : sf_funs) (M : machine sf) (fo : sf) (u : funit).
Notation A := (sf_arith X).
Notation K := (aF A).
Hypothesis UO : funit_ok X M u.
Notation G := (tick_gap (fu_W u) (fu_T u)).
Definition fmv (m : smotion sf) (l : flimits) : fmove := mkFM m (fl_a l) (fl_d l) (fl_j l) (fl_vm l) (fl_L l).
Notation runs32 := (frun X (fu_k u) (fu_B u) (fu_H u) (fu_W u) (fu_T u)).

Lemma sqr_inv x y : 0 <= y -> x * x <= y * y -> x <= y.
Proof. intros Hy H. destruct (Rle_lt_dec x y) as [|C]; auto. assert (y * y < x * x) by (apply Rmult_le_0_lt_compat; lra). lra. Qed.

Lemma planned_frun o m P l c : carried X M fo u m P l c -> planned X M fo o (fmv m l) -> exists it, runs32 o it /\ executes u (fi_leg it) P l.
Proof.
  intros S ((OK & MT & TR & KP) & p & KP' & EP). cbn [fmv fm_m] in *.
  pose proof (standing_kept X fo _ _ _ _ _ _ _ _ (cd_plan _ _ _ _ _ _ _ _ S) KP') as ST.
  destruct (plan_float X p _ (m_minS M) fo _ _ _ _ _ ST) as (T & len & s & v & acc & Tf & PS & EL & (V & HV & VE & TV) & FT & ET & SM & _ & _ & _ & STP).
  rewrite <- EP in *. destruct (cd_len _ _ _ _ _ _ _ _ S) as (LB & LE). destruct (sd_usual _ _ _ _ _ _ _ _ _ ST) as (Ua & Ud & Uj & Uv & UL). unfold usual in *.
  destruct (cd_brief _ _ _ _ _ _ _ _ S) as (B1 & B2). pose proof (cd_long _ _ _ _ _ _ _ _ S) as LO. pose proof (fu_tick _ _ _ UO) as TW. pose proof (fu_large _ _ _ UO) as (LB1 & LB2).
  set (pl := pa_len P) in *. set (g := mkLeg P T s).
  assert (EL' : Rabs (len - pl) <= pl / 450000). { apply Rabs_le_inv in EL. apply Rabs_le_inv in LE. unfold eps in LE. apply Rabs_le. lra. }
  pose proof EL' as EL2. apply Rabs_le_inv in EL2.
  assert (T0 : 0 <= T) by apply (ps_time _ _ _ _ _ _ _ _ _ _ _ _ PS).
  assert (UT : 0 < fu_T u). { destruct (Rlt_le_dec 0 (fu_T u)); auto. exfalso. assert (fl_vm l * fu_T u <= 0); [|lra]. rewrite <- (Rmult_0_r (fl_vm l)). apply Rmult_le_compat_l; lra. }
  assert (TL : len <= fl_vm l * T).
  { pose proof (lip s v (fl_vm l) 0 0 T T0) as L. destruct (ps_start _ _ _ _ _ _ _ _ _ _ _ _ PS) as (S0 & _). destruct (ps_end _ _ _ _ _ _ _ _ _ _ _ _ PS) as (S1 & _).
    rewrite S0, S1, !Rminus_0_r in L. apply L.
    - intros t Ht. apply (ps_speed _ _ _ _ _ _ _ _ _ _ _ _ PS). lra.
    - intros t Ht. apply (ps_scont _ _ _ _ _ _ _ _ _ _ _ _ PS). lra.
    - intros t Ht. apply (ps_vbound _ _ _ _ _ _ _ _ _ _ _ _ PS). lra. }
  assert (TG : 9/2 * G <= T). { apply (Rmult_le_reg_l (fl_vm l)); [lra|]. lra. }
  assert (TU : T <= 99/100 * fu_T u).
  { destruct VE as [VE|VE].
    - apply (Rmult_le_reg_l (fl_vm l)); [lra|]. rewrite <- VE in *. lra.
    - assert (AD : 0 < / fl_a l + / fl_d l) by (apply Rplus_lt_0_compat; apply Rinv_0_lt_compat; lra).
      apply sqr_inv; [lra|]. apply (Rmult_le_reg_r (V * V)); [apply Rmult_lt_0_compat; lra|].
      assert (T * T * (V * V) <= 2 * len * (2 * len)). { replace (T * T * (V * V)) with (T * V * (T * V)) by ring. assert (0 <= T * V) by (apply Rmult_le_pos; lra). apply Rmult_le_compat; lra. }
      set (AD' := / fl_a l + / fl_d l) in *. set (Tm := fu_T u) in *.
      assert (LP : 99/100 * pl <= fl_L l). { apply Rabs_le_inv in LE. unfold eps in LE. lra. }
      assert (E1 : 3 * pl * AD' * (65535/65536 * (2 * fl_L l / AD')) <= Tm * Tm * (V * V)).
      { apply Rmult_le_compat; auto. - apply Rmult_le_pos; lra. - apply Rmult_le_pos; [lra|]. apply Rlt_le, Rdiv_lt_0_compat; lra. }
      replace (3 * pl * AD' * (65535/65536 * (2 * fl_L l / AD'))) with (6 * (65535/65536) * (pl * fl_L l)) in E1 by (field; lra).
      assert (E2 : pl * (99/100 * pl) <= pl * fl_L l) by (apply Rmult_le_compat_l; lra).
      assert (E3 : 2 * len * (2 * len) <= 41/20 * pl * (41/20 * pl)) by (apply Rmult_le_compat; lra).
      assert (0 <= pl * pl) by (apply Rmult_le_pos; lra).
      replace (99/100 * Tm * (99/100 * Tm) * (V * V)) with (9801/10000 * (Tm * Tm * (V * V))) by field. lra. }
  exists (mkFI g Tf len (fl_a l) (fl_d l) (fl_vm l) c). apply Rabs_le_inv in ET.
  assert (G0 : 0 < G) by (unfold tick_gap; lra).
  split.
  - constructor; cbn [fi_leg fi_Tf fi_l fi_a fi_d fi_vm fi_c it_T it_s it_len it_P g lg_path lg_T lg_s]; auto.
    + lra.
    + apply Rabs_le. lra.
    + eauto.
    + lra.
    + fold pl. split; [lra|exact EL'].
    + intros tf t Ft Ht. destruct (SM tf t Ft Ht) as (x & Fx & Ex). exists x. split; auto. apply Rabs_le_inv in LE. unfold eps in LE. fold pl. lra.
    + apply (cd_lin _ _ _ _ _ _ _ _ S).
    + intros i dist x Hi Fd Hx. now apply (cd_pos _ _ _ _ _ _ _ _ S).
    + intros i Hi HM x y. now apply (cd_fixed _ _ _ _ _ _ _ _ S o).
    + apply (cd_steps _ _ _ _ _ _ _ _ S).
    + apply (cd_rate _ _ _ _ _ _ _ _ S).
    + apply (cd_soft _ _ _ _ _ _ _ _ S).
  - split; [reflexivity|]. cbn [fi_leg g lg_T lg_s]. split; [lra|]. exists len, v, acc. auto.
Qed.

(** *** Queueing while stopped *)
Variable fine : fmotion -> Prop.
Hypothesis FINE : forall q, fine q -> exists c, carried X M fo u (fq_m q) (fq_P q) (fq_l q) c.
Notation zero := (nofZ K 0).
Notation wtick := (mkST zero zero 0).
Variable w : sf.
Hypothesis FW : float32 w (fu_W u).
Definition fmq (q : fmotion) : fmove := fmv (fq_m q) (fq_l q).
Record floaded (c : ctrl sf) (qs : list fmotion) : Prop := {
  fd_state : c_state c = ms_stopped;
  fd_ring : ringok c;
  fd_level : c_level c = N.of_nat (length qs);
  fd_st : c_st c = wtick w;
  fd_fo : c_fo c = fo;
  fd_pos : length (c_pos c) = 3%nat;
  fd_queue : Forall2 (fun o q => headed X M fo o (fmq q)) (queue A c) qs }.
Lemma idle_floaded c : idle X c w fo -> floaded c [].
Proof.
  intros [H1 H2 H3 H4 H5 H6 H7]. constructor; auto.
  - unfold ringok. rewrite H2, H4. repeat split; auto. lia.
  - unfold queue. rewrite H2. constructor.
Qed.
Lemma append_floaded c qs q : floaded c qs -> fine q -> (length qs < 32)%nat ->
  floaded (c_append A M c (fq_m q)) (qs ++ [q]) /\ c_pos (c_append A M c (fq_m q)) = c_pos c.
Proof.
  intros [H1 H2 H3 H4 H5 H6 H7] EX HL. destruct (ring_push A M c (fq_m q) H2 ltac:(lia)) as (P1 & P2 & P3 & P4 & o & P5).
  destruct (append_keep A M c (fq_m q)) as (K1 & K2 & K3 & K4).
  split; [|auto]. constructor; auto; try congruence.
  - rewrite P2, H3, app_length. cbn [length]. lia.
  - rewrite P5. apply Forall2_app; auto. constructor; [|constructor]. rewrite H5. unfold c_strategy. rewrite H1.
    apply set_headed; [|reflexivity]. destruct (FINE _ EX) as (? & CD). split; apply CD.
Qed.
Lemma appends_floaded qs : forall c done, floaded c done -> Forall fine qs -> (length done + length qs <= 32)%nat ->
  exists c', c_run A M c (map (fun q => OAppend (fq_m q)) qs) = Ok (c', []) /\ floaded c' (done ++ qs) /\ c_pos c' = c_pos c.
Proof.
  induction qs as [|q qs IH]; intros c done LD EX HL; cbn [map c_run].
  - exists c. rewrite app_nil_r. auto.
  - inversion EX as [|? ? E1 E2]; subst. cbn [length] in HL. destruct (append_floaded c done q LD E1 ltac:(lia)) as (L1 & P1).
    destruct (IH _ (done ++ [q]) L1 E2) as (c' & R & L2 & P2). { rewrite app_length. cbn [length]. lia. }
    exists c'. cbn [c_step rbind]. rewrite R. cbn [rbind app]. split; auto. rewrite <- app_assoc in L2. split; auto. congruence.
Qed.
Lemma planned_items qs : Forall fine qs -> forall os, Forall2 (fun o q => planned X M fo o (fmq q)) os qs ->
  exists its, Forall2 runs32 os its /\ Forall2 (fun it q => executes u (fi_leg it) (fq_P q) (fq_l q)) its qs.
Proof.
  induction 1 as [|q qs EX _ IH]; intros os F2; inversion F2 as [|o ? os' ? R0 F2']; subst.
  - exists []. auto.
  - destruct (FINE _ EX) as (cc & CD). destruct (planned_frun o _ _ _ cc CD R0) as (it & P1 & P2). destruct (IH os' F2') as (its & Q1 & Q2). exists (it :: its). auto.
Qed.
Lemma reads_start : reads (fu_W u) 0 0 = 0.
Proof. unfold reads. change (IZR (Z.of_N 0)) with 0. now rewrite rnd_0, Rmult_0_l, rnd_0, Rplus_0_r, rnd_0. Qed.
Definition dfq : fmotion := mkFQ (sm_default A) (mkPath 0 (fun _ => 0) (fun _ => 0) None) (mkFL 0 0 0 0 0).

Lemma start_live c q qs x0 : floaded c (q :: qs) -> Forall fine (q :: qs) -> (forall i, (i < 3)%nat -> Rabs (fu_k u i * (path_pos (fq_P q) i 0 - x0 i)) <= / 1000) ->
  (exists b, (b <= 31)%nat /\ linked (fu_k u) (fq_P q) (map fq_P qs) b) ->
  (forall i, (i < 3)%nat -> Rabs (fu_k u i * x0 i - counted c i) <= 54/100) ->
  exists it its, Forall2 (fun it q => executes u (fi_leg it) (fq_P q) (fq_l q)) (it :: its) (q :: qs) /\
    live X (fu_k u) (fu_B u) (fu_H u) (fu_W u) (fu_T u) w (c_start A M c) [] it its 0 zero 0 0 1.
Proof.
  intros [H1 H2 H3 H4 H5 H6 H7] EX J1 (b & JB & J2) CL. unfold c_start, c_isEmpty.
  destruct (N.eqb_spec (c_level c) 0) as [E|_]. { rewrite H3 in E. cbn in E. lia. }
  cbn [negb]. set (c1 := c_with_state (c_emit c [motionStarted]) ms_running).
  pose proof (proj1 (slot_queue A (fun o q => headed X M fo o (fmq q)) dfq c (q :: qs) H3) H7) as SQ.
  destruct (optimize_best A M (fun o q => headed X M fo o (fmq q)) (fun o q => limited X M fo o (fmq q)) (fun o q => planned X M fo o (fmq q)) dfq fo) with (c := c1) (qs := q :: qs) as (F2 & WF).
  - intros o p H. apply H.
  - intros o p H. apply H.
  - intros. now apply limited_vEnd.
  - intros. now apply headed_vEnd.
  - intros. now apply limited_vStart.
  - intros. now apply limited_best.
  - intros. now apply headed_best.
  - constructor; auto. + unfold c1. cbn. rewrite H4. reflexivity. + intros j Hj. apply (SQ j Hj).
  - discriminate.
  - apply (SQ 0%nat). cbn. lia.
  - destruct (optimize_keep A M c1) as (K1 & K2 & K3 & K4 & K5 & K6 & K7 & K8 & _). set (c' := c_optimize A M c1) in *.
    destruct (planned_items _ EX _ F2) as ([|it its] & Q1 & Q2); [inversion Q2|]. exists it, its. split; auto.
    assert (LQ : length its = length qs) by (inversion Q2 as [|? ? ? ? _ Q3]; subst; clear - Q3; induction Q3; cbn; auto).
    assert (LL : (length qs <= 31)%nat). { destruct H2 as (_ & _ & L32). rewrite H3 in L32. cbn [length] in L32. lia. }
    inversion Q2 as [|? ? ? ? E1 E2]; subst. destruct E1 as (EP & ET & len & v & acc & PS & EL).
    inversion Q1 as [|? ? ? ? R1 R2]; subst.
    assert (S0 : it_s it 0 = 0) by apply (ps_start _ _ _ _ _ _ _ _ _ _ _ _ PS).
    pose proof (fu_tick _ _ _ UO) as TW.
    constructor; auto.
    + rewrite K7, LQ. exact H3.
    + rewrite K4. exact H4.
    + apply fin_float32. apply (fin_lit X 0); lia.
    + unfold tick_gap. lra.
    + lia.
    + rewrite reads_start. pose proof (fr_Tf _ _ _ _ _ _ _ _ R1) as TF. unfold tick_gap in TF. lra.
    + rewrite K2. exact H6.
    + intros i Hi. rewrite reads_start, Rmin_left by lra. unfold yat. rewrite S0, EP. specialize (CL i Hi). specialize (J1 i Hi).
      unfold counted in CL. unfold fpos. rewrite K2. change (c_pos c1) with (c_pos c).
      pose proof (fu_large _ _ _ UO) as (LB1 & LB2). apply Rabs_le_inv in CL. apply Rabs_le_inv in J1. rewrite Rmult_minus_distr_l in J1.
      apply Rle_trans with (541/1000); [apply Rabs_le; lra|]. unfold err0, dlt, drift, slack. destruct (mo_isMoving _ _ _); cbn [INR]; lra.
    + exists b. split; [lia|]. split; [lia|]. rewrite EP. replace (map (fun it => it_P it) its) with (map fq_P qs); auto. clear - E2. induction E2 as [|? ? ? ? H _ IH]; cbn [map]; auto. rewrite IH, (proj1 H). reflexivity.
    + rewrite Rplus_0_r, Rmult_0_l. cbn. split; [|lra]. rewrite Rminus_0_r, Rabs_R0. lra.
Qed.

(** *** What ticks keep, and the clock once there is nothing left to do. *)
Record housed (c : ctrl sf) : Prop := {
  ho_ring : ringok c;
  ho_width : st_width (c_st c) = w;
  ho_fo : c_fo c = fo;
  ho_rest : c_level c = 0%N -> c_state c = ms_stopped /\ c_st c = wtick w }.
Lemma move_frame32 (c c' : ctrl sf) : c_move A M c = Ok c' ->
  c_items c' = c_items c /\ c_head c' = c_head c /\ c_level c' = c_level c /\ c_st c' = c_st c /\
  c_state c' = c_state c /\ c_fo c' = c_fo c.
Proof.
  unfold c_move. intro H. cbn [c_moveAxes axes] in H. unfold rbind in H.
  assert (Q : forall o dist i (d d' : ctrl sf), c_moveAxis A M o dist d i = Ok d' ->
     c_items d' = c_items d /\ c_head d' = c_head d /\ c_level d' = c_level d /\ c_st d' = c_st d /\
     c_state d' = c_state d /\ c_fo d' = c_fo d).
  { clear. intros o dist i d d' H. unfold c_moveAxis, c_trackAxis in H.
    destruct (mo_isMoving A o i); [|inversion H; subst; repeat split; auto].
    unfold rbind in H. destruct (c_decide A M d i _) as [[x|]|]; [| |discriminate].
    - apply stepAxis_ok in H. destruct H as (_ & _ & ->). repeat split.
    - inversion H; subst; repeat split. }
  destruct (c_moveAxis _ _ _ _ c 0) as [c1|] eqn:E0; [|discriminate].
  destruct (c_moveAxis _ _ _ _ c1 1) as [c2|] eqn:E1; [|discriminate].
  destruct (c_moveAxis _ _ _ _ c2 2) as [c3|] eqn:E2; [|discriminate].
  inversion H; subst c3; clear H.
  destruct (Q _ _ _ _ _ E0) as (? & ? & ? & ? & ? & ?). destruct (Q _ _ _ _ _ E1) as (? & ? & ? & ? & ? & ?).
  destruct (Q _ _ _ _ _ E2) as (? & ? & ? & ? & ? & ?). repeat split; congruence.
Qed.
Lemma advance_housed f : forall c c', ringok c -> (0 < c_level c)%N -> st_width (c_st c) = w -> c_fo c = fo -> c_advance A M f c = Ok c' -> housed c'.
Proof.
  induction f as [|f IH]; intros c c' RI LV WD FE E; cbn [c_advance] in E.
  all: destruct (st_isBeyond A (c_st c) _).
  2,4: apply move_frame32 in E; destruct E as (E1 & E2 & E3 & E4 & E5 & E6); constructor; [unfold ringok in *; now rewrite E1, E2, E3|congruence|congruence|intro; exfalso; lia].
  all: destruct (ring_pop A c RI LV) as (_ & RP & LP).
  all: destruct (N.ltb_spec 1 (c_level c)).
  - discriminate.
  - inversion E; subst; clear E. constructor; [exact RP|exact WD|exact FE|]. intros _. split; [reflexivity|]. cbn. unfold st_initialize. rewrite WD. reflexivity.
  - eapply IH in E; auto; cbn [c_emit c_with_st c_level]; auto. change (0 < c_level (c_pop c))%N. rewrite LP. lia.
  - inversion E; subst; clear E. constructor; [exact RP|exact WD|exact FE|]. intros _. split; [reflexivity|]. cbn. unfold st_initialize. rewrite WD. reflexivity.
Qed.
Lemma tick_housed c c' : housed c -> c_tick A M c = Ok c' -> housed c'.
Proof.
  intros [H1 H2 H3 H4] E. unfold c_tick in E. destruct (c_isRunning _) eqn:RN.
  - assert (LV : (0 < c_level c)%N). { destruct (N.eq_dec (c_level c) 0) as [Z|]; [|lia]. destruct (H4 Z) as (Z1 & _). unfold c_isRunning in RN. cbn [c_with_sig c_state] in RN. rewrite Z1 in RN. discriminate. }
    cbv zeta in E. match type of E with context [if ?b then _ else _] => destruct b end; (eapply advance_housed in E; [exact E|exact H1|exact LV|exact H2|exact H3]).
  - inversion E; subst. constructor; auto.
Qed.
Lemma ticks_housed n : forall c c', housed c -> ticks_run A M n c = Ok c' -> housed c'.
Proof.
  induction n as [|n IH]; intros c c' HC E; cbn [ticks_run] in E; [inversion E; subst; auto|].
  unfold rbind in E. destruct (c_tick A M c) as [c1|] eqn:E1; [|discriminate]. eapply IH; [|exact E]. eapply tick_housed; eauto.
Qed.
Lemma ticks_pos n : forall c c', length (c_pos c) = 3%nat -> ticks_run A M n c = Ok c' -> length (c_pos c') = 3%nat.
Proof.
  induction n as [|n IH]; intros c c' HC E; cbn [ticks_run] in E; [inversion E; subst; auto|].
  unfold rbind in E. destruct (c_tick A M c) as [c1|] eqn:E1; [|discriminate]. eapply IH; [|exact E]. eapply tick_ticks; eauto.
Qed.

(** *** A whole job *)
Lemma run_app ops1 : forall ops2 c c1, c_run A M c ops1 = Ok (c1, []) -> c_run A M c (ops1 ++ ops2) = c_run A M c1 ops2.
Proof.
  induction ops1 as [|o ops1 IH]; intros ops2 c c1 E; cbn [app c_run] in *; [now inversion E|].
  unfold rbind in *. destruct (c_step A M c o) as [[c2 s2]|]; [|discriminate].
  destruct (c_run A M c2 ops1) as [[c3 s3]|] eqn:E3; [|discriminate]. inversion E as [[E4 E5]]. apply app_eq_nil in E5. destruct E5; subst.
  rewrite (IH ops2 c2 c1 E3). destruct (c_run A M c1 ops2) as [[c4 s4]|]; reflexivity.
Qed.
Lemma fpos_counted i c : fpos i c = counted c i. Proof. reflexivity. Qed.

Lemma job_any c x0 qs : idle X c w fo -> Forall fine qs -> qs <> [] -> (length qs <= 32)%nat -> joined (fu_k u) x0 (map fq_P qs) ->
  (forall i, (i < 3)%nat -> Rabs (fu_k u i * x0 i - counted c i) <= 54/100) ->
  exists c0 legs (n : nat) cn,
    c_run A M c (map (fun q => OAppend (fq_m q)) qs ++ [OStart]) = Ok (c0, []) /\
    Forall2 (fun g q => executes u g (fq_P q) (fq_l q)) legs qs /\
    (forall j, (j < n)%nat -> exists cj, ticks_run A M j c0 = Ok cj /\ under_way u x0 legs cj j) /\
    ticks_run A M n c0 = Ok cn /\ all_done u x0 legs cn n /\ idle X cn w fo.
Proof.
  intros ID EX NE HL JN CL. destruct (appends_floaded qs c [] (idle_floaded c ID) EX HL) as (c1 & R1 & L1 & P1). cbn [app] in L1.
  destruct qs as [|q qs]; [congruence|].
  cbn [map joined] in JN. destruct JN as (J1 & J2).
  destruct (start_live c1 q qs x0 L1 EX J1) as (it & its & FE & LV). { exists (length (map fq_P qs)). split; [rewrite map_length; cbn [length] in HL; lia|now apply joined_linked]. } { intros i Hi. unfold counted. rewrite P1. apply CL; auto. }
  set (c0 := c_start A M c1) in *. destruct UO as [U1 (U2 & U2') U3 U4].
  destruct (run_live X M (fu_k u) (fu_B u) (fu_H u) (fu_W u) (fu_T u) w) with (x0 := x0) (z := left_ticks 0 its) (c := c0) (pre := @nil leg) (it := it) (its := its) (n := 0%N) (o := zero) (O := 0) (m0 := 0%Z) (jn := 1%nat)
    as (n & cn & T1 & (T2 & T3 & T4 & T5) & T6); auto.
  { intros i Hi. apply U1; auto. } { intros i Hi. apply Rlt_le, U1; auto. }
  cbn [app] in *. set (legs := map fi_leg (it :: its)) in *.
  assert (NI : forall j : nat, IZR (0 + Z.of_N 0 + Z.of_nat j) = INR j) by (intro j; rewrite INR_IZR_INZ; f_equal).
  assert (HC0 : housed c0).
  { constructor.
    - apply (lv_ring _ _ _ _ _ _ _ _ _ _ _ _ _ _ _ _ LV).
    - rewrite (lv_st _ _ _ _ _ _ _ _ _ _ _ _ _ _ _ _ LV). reflexivity.
    - unfold c0, c_start. destruct (negb _); [|apply L1]. match goal with |- context [c_optimize A M ?d] => destruct (optimize_keep A M d) as (_ & _ & _ & _ & _ & _ & _ & -> & _) end. apply L1.
    - rewrite (lv_level _ _ _ _ _ _ _ _ _ _ _ _ _ _ _ _ LV). lia. }
  pose proof (ticks_housed n c0 cn HC0 T1) as [(G1 & G2 & G3) G4 G5 G6]. destruct (G6 T3) as (_ & G7).
  exists c0, legs, n, cn. split.
  { rewrite (run_app _ [OStart] c c1 R1). reflexivity. }
  split. { unfold legs. clear - FE. induction FE; cbn [map]; auto. }
  split. { intros j Hj. destruct (T6 j Hj) as (cj & Q1 & Q2 & t & Q3 & Q4 & Q5). exists cj. split; auto. split; auto. exists t. rewrite NI in Q4. auto. }
  split; auto. split. { rewrite NI in T5. split; auto. }
  constructor; auto. apply (ticks_pos n c0 cn); auto. apply (lv_pos _ _ _ _ _ _ _ _ _ _ _ _ _ _ _ _ LV).
Qed.

(** Where an axis ends within reach of a whole number of steps, that is what is counted. *)
Lemma landing_lemma x0 legs c n i z : all_done u x0 legs c n -> (i < 3)%nat ->
  Rabs (fu_k u i * end_of x0 (map lg_path legs) i - IZR z) < 1 - reach (fu_B u) (fu_H u) -> nth i (c_pos c) 0%Z = z.
Proof.
  intros (_ & _ & E & _) Hi C. specialize (E i Hi). unfold counted in E. apply Rabs_def2 in C. apply Rabs_le_inv in E.
  assert (-1 < IZR (nth i (c_pos c) 0%Z) - IZR z < 1) as D by lra. rewrite <- minus_IZR in D. destruct D as (D1 & D2).
  apply (lt_IZR (-1)) in D1. apply (lt_IZR _ 1) in D2. lia.
Qed.
End Job.
Lemma job_lemma X M fo u : funit_ok X M u -> forall w, float32 w (fu_W u) ->
  forall c x0 qs, idle X c w fo -> Forall (fq_ok X M fo u) qs -> qs <> [] -> (length qs <= 32)%nat -> joined (fu_k u) x0 (map fq_P qs) ->
  (forall i, (i < 3)%nat -> Rabs (fu_k u i * x0 i - counted c i) <= 54/100) ->
  exists c0 legs (n : nat) cn,
    c_run (sf_arith X) M c (map (fun q => OAppend (fq_m q)) qs ++ [OStart]) = Ok (c0, []) /\
    Forall2 (fun g q => executes u g (fq_P q) (fq_l q)) legs qs /\
    (forall j, (j < n)%nat -> exists cj, ticks_run (sf_arith X) M j c0 = Ok cj /\ under_way u x0 legs cj j) /\
    ticks_run (sf_arith X) M n c0 = Ok cn /\ all_done u x0 legs cn n /\ idle X cn w fo.
Proof. intros UO w FW c x0 qs. apply job_any; auto. intros q S. exists 1. now apply straight_carried. Qed.

(** *** An example: 50 mm along X, then 50 mm askew, at 20 mm/s. *)
Lemma float64_lit X z : (Z.abs z <= 9007199254740992)%Z -> float64 (nofZ (aD (sf_arith X)) z) (IZR z).
Proof.
  intro H. assert (E : rnd53 (IZR z) = IZR z).
  { apply round_generic; [apply valid_rnd_N|]. change (generic_format radix2 (FLT_exp (-1074) 53) (IZR z)). destruct (Z.eq_dec (Z.abs z) 9007199254740992) as [Z1|Z1].
    - destruct (Z.abs_spec z) as [[_ Z2]|[_ Z2]]; rewrite Z2 in Z1; [subst z|assert (z = -9007199254740992)%Z as -> by lia; change (-9007199254740992)%Z with (- (9007199254740992))%Z; rewrite opp_IZR; apply generic_format_opp].
      all: change (IZR 9007199254740992) with (bpow radix2 53); apply generic_format_bpow; cbn; lia.
    - apply generic_format_FLT. exists (Float radix2 z 0); [unfold F2R; cbn; lra|cbn; lia|cbn; lia]. }
  assert (F : fin64 (nofZ (aD (sf_arith X)) z) (IZR z)).
  { rewrite <- E. apply (fin_ofZ _ _ prec53 max53). unfold small. fold (rnd53 (IZR z)). rewrite E, <- abs_IZR. apply Rle_lt_trans with (IZR 9007199254740992); [apply IZR_le; auto|].
    change (IZR 9007199254740992) with (bpow radix2 53). apply bpow_lt. lia. }
  destruct F as (b & <- & F & <-). split; [apply valid_binary_B2SF|]. destruct b as [s|s| |s m e B]; try discriminate; [reflexivity|].
  unfold B2SF, sf_val, B2R, F2R. cbn [Fnum Fexp]. rewrite bpow_val. destruct s; cbn [SpecFloat.cond_Zopp cond_Zopp]; do 2 f_equal; [|lra].
  change (Z.neg m) with (- Z.pos m)%Z. rewrite opp_IZR. lra.
Qed.
Lemma ex_ok X q : q = ex_q1 X \/ q = ex_q2 X -> fq_ok X (cnc3axis (sf_arith X)) (nofZ (aF (sf_arith X)) 1) ex_u q.
Proof.
  assert (V : forall m e r, valid_binary 24 128 (S754_finite false m e) = true -> IZR (Z.pos m) * bpow radix2 e = r -> float32 (S754_finite false m e) r).
  { intros m e r H1 H2. apply f32; auto. rewrite Rmult_1_l. auto. }
  intros [-> | ->]; constructor; cbn [ex_q1 ex_q2 ex_u fq_P fq_l fq_m line line_path sm_type sm_arc0 sm_arc1 sm_length pa_len pa_start pa_delta pa_arc fl_a fl_d fl_j fl_vm fl_L fu_k fu_B fu_H fu_W fu_T sm_start sm_delta map]; auto;
    unfold tick_gap, last_gap; try (intros; lra); try (apply float64_lit; lia).
  1,5: intros [|[|[|i]]] Hi; [(apply float64_lit; cbn [nth]; lia)..|lia].
  1,4: intros [|[|[|i]]] Hi; [(cbn [nth]; split; [apply float64_lit; lia|split; [apply Rabs_le; lra|]]; ((left; reflexivity) || (right; unfold Rabs; destruct (Rcase_abs _); lra)))..|lia].
  2,4: intros [|[|[|i]]] Hi; cbn [nth]; [unfold Rabs; destruct (Rcase_abs _); lra ..|lia].
  all: remember (prof_setSpeed _ _ _ _ _) as p eqn:E; vm_compute in E; remember (t_length _) as l eqn:El; vm_compute in El.
  all: constructor; subst; try (split; reflexivity); unfold usual; try lra; cbn [p_aMax p_dMax p_jMax].
  all: try (apply f32; [reflexivity|]; cbv iota; change (bpow radix2 (-16)) with (/ 65536); change (bpow radix2 (-14)) with (/ 16384); change (bpow radix2 (-18)) with (/ 262144); lra).
  all: eexists; split; [|vm_compute; reflexivity]; apply V; [reflexivity|]; change (bpow radix2 (-19)) with (/ 524288); lra.
Qed.
Lemma job_example X : let A := sf_arith X in let M := cnc3axis A in let fo := nofZ (aF A) 1 in let c := c_init A 375 (tickWidth A) in
  let qs := [ex_q1 X; ex_q2 X] in let x0 := fun _ => 0 in
  idle X c (tickWidth A) fo /\ float32 (tickWidth A) (fu_W ex_u) /\ funit_ok X M ex_u /\ Forall (fq_ok X M fo ex_u) qs /\
  joined (fu_k ex_u) x0 (map fq_P qs) /\ (forall i, (i < 3)%nat -> Rabs (fu_k ex_u i * x0 i - counted c i) <= 54/100) /\
  (forall i, (i < 3)%nat -> Rabs (fu_k ex_u i * end_of x0 (map fq_P qs) i - IZR (nth i [4000; 8000; 0]%Z 0%Z)) < 1 - reach (fu_B ex_u) (fu_H ex_u)).
Proof.
  cbv zeta. split. { constructor; reflexivity. }
  split. { apply clock_example. }
  split. { constructor; cbn [ex_u fu_k fu_B fu_H fu_W fu_T]; try lra. intros i Hi. split; [|lra].
    assert (E : nthF (sf_arith X) (m_stepsPerMm (cnc3axis (sf_arith X))) i = S754_finite false 13107200 (-16)) by (destruct i as [|[|[|i]]]; [reflexivity..|lia]).
    rewrite E. apply f32; [reflexivity|]. change (bpow radix2 (-16)) with (/ 65536). lra. }
  split. { constructor; [|constructor; [|constructor]]; apply ex_ok; auto. }
  split. { cbn [map joined ex_q1 ex_q2 fq_P line_path ex_u fu_k]. unfold path_pos, linear_pos. cbn [line_path pa_arc pa_len pa_start pa_delta].
    repeat split; intros [|[|[|i]]] Hi; cbn [nth]; try lia; apply Rabs_le; lra. }
  split. { intros [|[|[|i]]] Hi; try lia; cbn [ex_u fu_k]; unfold counted; cbn; apply Rabs_le; lra. }
  intros [|[|[|i]]] Hi; try lia; cbn [map end_of ex_q1 ex_q2 fq_P line_path ex_u fu_k fu_B fu_H]; unfold reach, slack, path_pos, linear_pos; cbn [line_path pa_arc pa_len pa_start pa_delta nth]; apply Rabs_def1; lra.
Qed.
