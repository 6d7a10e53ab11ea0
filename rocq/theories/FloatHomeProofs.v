(** The reported position, and motions from there, in single precision: C92. *)
Require Import List Arith NArith ZArith Bool Reals Lra Lia ZifyBool ZifyNat ZifyN.
From Coq Require Import Floats.SpecFloat.
From Flocq Require Import Zaux Raux Defs Generic_fmt FLT Float_prop Round_NE Ulp Round_pred Relative Plus_error BinarySingleNaN.
From Verif Require Import Base BaseProofs Num NumR NumSF StepModel MotionModel CtrlModel CtrlSpec ProfileSpec GeomSpec RunSpec HomingModel HomingSpec.
From Verif Require Import FloatSpec FloatRunSpec FloatArcSpec FloatHomeSpec FloatProofs FloatClockProofs FloatTrackProofs FloatErrProofs FloatPlanProofs FloatJobProofs FloatLimitProofs FloatReadProofs RestJobProofs.
Import ListNotations.
Open Scope R_scope.

(** *** The reported position. *)
Section Report.
Variables (X : sf_funs) (M : machine sf) (i : nat) (k : R).
Hypothesis Hi : (i < 3)%nat.
Hypothesis HK : float32 (nthF (sf_arith X) (m_stepsPerMm M) i) k.
Hypothesis KB : / 1048576 <= k <= 1048576.
Lemma reported_eq (c : ctrl sf) : reported X M c i = ndiv (aF (sf_arith X)) (nofZ (aF (sf_arith X)) (nth i (c_pos c) 0%Z)) (nthF (sf_arith X) (m_stepsPerMm M) i).
Proof. unfold reported, c_getMachinePosition. destruct i as [|[|[|]]]; [reflexivity..|lia]. Qed.
Lemma reported_fin (c : ctrl sf) : (Z.abs (nth i (c_pos c) 0) <= 1048576)%Z ->
  exists r, float32 (reported X M c i) r /\ Rabs (k * r - counted c i) <= Rabs (counted c i) / 16777216.
Proof.
  intro PB. rewrite reported_eq. unfold counted. set (p := nth i (c_pos c) 0%Z) in *. exists (rnd (IZR p / k)).
  assert (PA : Rabs (IZR p) <= 1048576) by (rewrite <- abs_IZR; apply IZR_le; lia).
  assert (FP : fin32 (nofZ (aF (sf_arith X)) p) (IZR p)).
  { rewrite <- (rnd_int p) by lia. apply (fin_ofZ _ _ prec24 max24). apply small_le. lra. }
  assert (IK : / 1048576 <= / k <= 1048576).
  { split; [apply Rinv_le_contravar; lra|]. rewrite <- (Rinv_inv 1048576). apply Rinv_le_contravar; lra. }
  assert (QA : Rabs (IZR p / k) = Rabs (IZR p) * / k) by (unfold Rdiv; rewrite Rabs_mult, (Rabs_pos_eq (/ k)) by lra; reflexivity).
  assert (QB : Rabs (IZR p / k) <= 1048576 * 1048576) by (rewrite QA; apply Rmult_le_compat; try lra; apply Rabs_pos).
  split.
  - apply fin_float32. apply (fin_div _ _ prec24 max24); auto; [apply fin_float32; exact HK|lra|].
    unfold small. pose proof (rnd_err (IZR p / k)) as E.
    assert (Rabs (rnd (IZR p / k)) <= Rabs (IZR p / k) + Rabs (rnd (IZR p / k) - IZR p / k)). { replace (rnd (IZR p / k)) with (IZR p / k + (rnd (IZR p / k) - IZR p / k)) at 1 by ring. apply Rabs_triang. }
    change (Rabs (rnd (IZR p / k)) < bpow radix2 128). apply Rlt_le_trans with (bpow radix2 60); [|apply bpow_le; lia]. change (bpow radix2 60) with 1152921504606846976. unfold eps, eta in E. lra.
  - destruct (Z.eq_dec p 0) as [->|N].
    + unfold Rdiv. rewrite Rmult_0_l, rnd_0, Rmult_0_r, Rminus_0_r, Rabs_R0. lra.
    + assert (PP : 1 <= Rabs (IZR p)) by (rewrite <- abs_IZR; apply IZR_le; lia).
      assert (LB : / 1048576 <= Rabs (IZR p / k)). { rewrite QA. rewrite <- (Rmult_1_l (/ 1048576)). apply Rmult_le_compat; lra. }
      pose proof (rnd_err_n _ LB) as E. replace (k * rnd (IZR p / k) - IZR p) with (k * (rnd (IZR p / k) - IZR p / k)) by (field; lra).
      rewrite Rabs_mult, (Rabs_pos_eq k) by lra. apply Rle_trans with (k * (eps * Rabs (IZR p / k))); [apply Rmult_le_compat_l; lra|].
      rewrite QA. unfold eps. replace (k * (/ 16777216 * (Rabs (IZR p) * / k))) with (Rabs (IZR p) / 16777216) by (field; lra). lra.
Qed.
(** Commanding the reported position asks for no step. *)
Lemma reported_still (c : ctrl sf) : (Z.abs (nth i (c_pos c) 0) <= 1000000)%Z -> c_decide (sf_arith X) M c i (reported X M c i) = Ok None.
Proof.
  intro PB. destruct (reported_fin c ltac:(lia)) as (r & F & E). unfold counted in E. set (p := nth i (c_pos c) 0%Z) in *.
  assert (PA : Rabs (IZR p) <= 1000000) by (rewrite <- abs_IZR; apply IZR_le; lia).
  assert (E' : Rabs (k * r - IZR p) <= / 16) by lra. apply Rabs_le_inv in E'. apply Rabs_le_inv in PA.
  destruct (decide_fdec X M i k HK c _ r 1000001 F) as (u & v & NS & ->); [apply Rabs_le; lra|lra|lia|]. fold p. f_equal.
  pose proof (fdec_spec p u v _ _ NS) as S1. destruct (fdec p u v) as [[|]|]; [exfalso..|reflexivity]; unfold slack in S1; lra.
Qed.
End Report.

Lemma widen x r : float32 x r -> Rabs r <= 1000000000000 -> float64 (sf_cvt 53 1024 x) r.
Proof.
  intros F B. apply fin_float32 in F. pose proof (fin_format _ _ _ _ F) as G. apply float64_fin.
  assert (E : rnd53 r = r).
  { apply rnd53_id. revert G. apply generic_inclusion_mag. intros _. unfold SpecFloat.fexp, SpecFloat.emin. lia. }
  rewrite <- E. pose proof (small53 _ B) as S. pose proof (fin_value _ _ _ _ F) as V. destruct x as [s|s| |s m e]; try contradiction.
  - subst r. rewrite E. apply fin_zero.
  - cbn [sf_cvt]. assert (EE : r = F2R (Float radix2 (if s then Z.neg m else Z.pos m) e)) by (subst r; unfold F2R; cbn [Fnum Fexp]; destruct s; reflexivity).
    rewrite EE in S |- *. apply (fin_normalize _ _ prec53 max53). exact S.
Qed.

(** *** A motion of one axis. *)
Section Errand.
Variables (X : sf_funs) (M : machine sf) (u : funit) (a d v : nat -> R) (j : R).
Hypothesis UO : funit_ok X M u.
Hypothesis AL : axis_limits X M a d v j.
Notation A := (sf_arith X).
Lemma errand_room c ax x f i : errand u a d v j c ax x f -> (i < 3)%nat -> (Z.abs (nth i (c_pos c) 0) <= 1048576)%Z.
Proof.
  intros E Hi. destruct (er_room _ _ _ _ _ _ _ _ _ E i Hi) as (R1 & _). destruct (er_steps _ _ _ _ _ _ _ _ _ E i Hi) as (K1 & _). destruct (fu_large _ _ _ UO) as (U1 & _).
  pose proof (Rmult_le_pos (fu_k u i) (Rabs x) ltac:(lra) (Rabs_pos x)). unfold counted in R1. rewrite <- abs_IZR in R1. apply le_IZR. lra.
Qed.
Lemma single_straight (c : ctrl sf) ax off sp x f p : float64 off x -> speed_is sp (c_fo c) f -> errand u a d v j c ax x f ->
  (forall i, (i < 3)%nat -> float32 (reported X M c i) (p i) /\ Rabs (fu_k u i * p i - counted c i) <= Rabs (counted c i) / 16777216) ->
  exists l, straight X M (c_fo c) u (h_motion A M c ax off sp) (axis_path p ax x) l /\ limits_of a d ax f l.
Proof.
  intros FO FS ER RP. pose proof (fun i Hi => errand_room c ax x f i ER Hi) as ROOM. destruct ER as [Hax ST LN FD GE RM (B1 & B2) LG RT SO].
  set (dl := fun i => if Nat.eqb i ax then x else 0). set (m := h_motion A M c ax off sp).
  assert (EL : sm_length m = SFabs off) by reflexivity.
  assert (FL : float64 (sm_length m) (Rabs x)) by (rewrite EL; apply float64_fin, fin_abs, fin_float64; exact FO).
  assert (FZ : float64 (nofZ (aD A) 0) 0) by (apply float64_fin; apply fin_zero).
  assert (FDl : forall i, (i < 3)%nat -> float64 (nthD A (sm_delta m) i) (dl i)).
  { intros i Hi. unfold m, h_motion, sm_set, dl. cbn [sm_delta]. destruct ax as [|[|[|]]]; [..|lia]; (destruct i as [|[|[|]]]; [..|lia]); solve [exact FO|exact FZ]. }
  assert (DB : forall i, Rabs (dl i) <= Rabs x /\ (dl i = 0 \/ Rabs x <= 1000000000000000000000000 * Rabs (dl i))).
  { intro i. unfold dl. destruct (Nat.eqb i ax); [split; [lra|right; lra]|rewrite Rabs_R0; split; [lra|left; reflexivity]]. }
  assert (DA : dl ax = x) by (unfold dl; now rewrite Nat.eqb_refl).
  assert (SB : straight_by X m dl (Rabs x)).
  { constructor; [split; reflexivity|split; [exact FL|exact LN]|intros i Hi; split; [apply FDl; auto|apply DB]|exists ax; split; [exact Hax|rewrite DA; lra]]. }
  assert (FI : feed_is m (c_fo c) (Some f)).
  { destruct FS as (g & o & G1 & G2 & O1 & O2 & ->). exists o. split; auto. split; auto. exists g. split; [exact G1|]. split; auto. split; [lra|exact G2]. }
  destruct (limits_lemma X M a d v j m dl (Rabs x) (c_fo c) (Some f) AL SB FI GE) as (l & _ & _ & (K1 & K2) & ((ia & Hia & Ua) & (id & Hid & Ud) & Uv) & SD).
  exists l.
  assert (POS : 0 < fl_a l /\ 0 < fl_d l /\ 0 < fl_vm l).
  { pose proof (sd_usual _ _ _ _ _ _ _ _ _ SD) as (Q1 & Q2 & Q3 & Q4 & Q5). unfold usual in *. lra. }
  assert (AX : forall y, along dl (Rabs x) y ax = y) by (intro y; unfold along; rewrite DA; field; lra).
  assert (AO : forall y i, i <> ax -> along dl (Rabs x) y i = 0).
  { intros y i N. unfold along, dl. rewrite (proj2 (Nat.eqb_neq i ax) N), Rabs_R0. unfold Rdiv. ring. }
  destruct (al_a _ _ _ _ _ _ AL ax Hax) as (_ & MA). destruct (al_d _ _ _ _ _ _ AL ax Hax) as (_ & MD).
  destruct (K1 ax Hax) as (Ka & Kd & Kv). rewrite AX in Ka, Kd, Kv. specialize (K2 f eq_refl).
  assert (LI : limits_of a d ax f l).
  { assert (ia = ax) as ->. { destruct (Nat.eq_dec ia ax) as [|N]; auto. exfalso. rewrite AO in Ua by auto. destruct (al_a _ _ _ _ _ _ AL ia Hia) as (_ & Q). unfold moderate in Q. lra. }
    assert (id = ax) as ->. { destruct (Nat.eq_dec id ax) as [|N]; auto. exfalso. rewrite AO in Ud by auto. destruct (al_d _ _ _ _ _ _ AL id Hid) as (_ & Q). unfold moderate in Q. lra. }
    rewrite AX in Ua, Ud.
    assert (VL : (1 - / 250000) * f <= fl_vm l).
    { destruct Uv as [(iv & Hiv & Uv)|(g & E & Uv)]; [|injection E as ->; exact Uv].
      assert (iv = ax) as ->. { destruct (Nat.eq_dec iv ax) as [|N]; auto. exfalso. rewrite AO in Uv by auto. destruct (al_v _ _ _ _ _ _ AL iv Hiv) as (_ & Q). unfold moderate in Q. lra. }
      rewrite AX in Uv. lra. }
    split; [|split]; apply Rabs_le; lra. }
  split; [|exact LI]. destruct LI as (La & Ld & Lv). apply Rabs_le_inv in La. apply Rabs_le_inv in Ld. apply Rabs_le_inv in Lv. unfold moderate in MA, MD.
  destruct UO as [U1 (U2 & U2') U3 (U4 & U4')].
  assert (TP : 0 < fu_T u). { apply Rnot_le_lt. intro C. assert (0 <= f * (- fu_T u)) by (apply Rmult_le_pos; lra). lra. }
  assert (TG : 0 < tick_gap (fu_W u) (fu_T u)) by (unfold tick_gap; lra).
  assert (PI : forall i, (i < 3)%nat -> Rabs (fu_k u i * p i) <= Rabs (counted c i) + / 16 /\ Rabs (p i) <= Rabs (counted c i) / fu_k u i + / 16).
  { intros i Hi. destruct (RP i Hi) as (_ & E). destruct (ST i Hi) as (S1 & S2). destruct (RM i Hi) as (_ & _ & R3).
    pose proof (ROOM i Hi) as RO. apply IZR_le in RO. rewrite abs_IZR in RO. fold (counted c i) in RO.
    pose proof (Rabs_triang (counted c i) (fu_k u i * p i - counted c i)) as T. replace (counted c i + (fu_k u i * p i - counted c i)) with (fu_k u i * p i) in T by ring.
    split; [lra|]. rewrite Rabs_mult, (Rabs_pos_eq (fu_k u i)) in T by lra.
    assert (Q : Rabs (p i) <= Rabs (counted c i) / fu_k u i * (1 + / 16777216)).
    { apply (Rmult_le_reg_l (fu_k u i)); [lra|]. replace (fu_k u i * (Rabs (counted c i) / fu_k u i * (1 + / 16777216))) with (Rabs (counted c i) * (1 + / 16777216)) by (field; lra). lra. }
    pose proof (Rabs_pos x). lra. }
  constructor; cbn [axis_path pa_arc pa_start pa_delta pa_len]; fold dl.
  - reflexivity.
  - repeat split.
  - exact FL.
  - intros i Hi. destruct (RP i Hi) as (F & _). destruct (PI i Hi) as (_ & P2). destruct (RM i Hi) as (_ & _ & R3). pose proof (Rabs_pos x).
    assert (EQ : nthD A (sm_start m) i = sf_cvt 53 1024 (reported X M c i)) by (destruct i as [|[|[|]]]; [reflexivity..|lia]).
    rewrite EQ. apply widen; auto. lra.
  - intros i Hi. split; [apply FDl; auto|apply DB].
  - exact SD.
  - intros i Hi. destruct (RM i Hi) as (R1 & R2 & R3). destruct (PI i Hi) as (P1 & P2). destruct (U1 i Hi) as (_ & UK). rewrite Rabs_mult, (Rabs_pos_eq (fu_k u i)) in P1 by lra.
    split; [rewrite Rmult_plus_distr_l; lra|split; lra].
  - split.
    + assert (f * fu_T u <= 1001/1000 * fl_vm l * fu_T u) by (apply Rmult_le_compat_r; lra). pose proof (Rmult_lt_0_compat _ _ (proj2 (proj2 POS)) TP). lra.
    + assert (IA : / fl_a l <= 1001/1000 * / a ax). { apply (Rmult_le_reg_l (fl_a l)); [lra|]. rewrite Rinv_r by lra. replace 1 with (a ax * / a ax) by (field; lra). replace (fl_a l * (1001 / 1000 * / a ax)) with ((1001/1000 * fl_a l) * / a ax) by ring. apply Rmult_le_compat_r; [left; apply Rinv_0_lt_compat; lra|lra]. }
      assert (ID : / fl_d l <= 1001/1000 * / d ax). { apply (Rmult_le_reg_l (fl_d l)); [lra|]. rewrite Rinv_r by lra. replace 1 with (d ax * / d ax) by (field; lra). replace (fl_d l * (1001 / 1000 * / d ax)) with ((1001/1000 * fl_d l) * / d ax) by ring. apply Rmult_le_compat_r; [left; apply Rinv_0_lt_compat; lra|lra]. }
      pose proof (Rinv_0_lt_compat (a ax) ltac:(lra)). pose proof (Rinv_0_lt_compat (d ax) ltac:(lra)).
      assert (Q : 3 * Rabs x * (/ fl_a l + / fl_d l) <= 3 * Rabs x * (1001/1000 * (/ a ax + / d ax))) by (apply Rmult_le_compat_l; lra).
      assert (0 <= Rabs x * (/ a ax + / d ax)) by (apply Rmult_le_pos; lra). lra.
  - assert (fl_vm l * tick_gap (fu_W u) (fu_T u) <= 1001/1000 * f * tick_gap (fu_W u) (fu_T u)) by (apply Rmult_le_compat_r; lra).
    assert (0 <= f * tick_gap (fu_W u) (fu_T u)) by (apply Rmult_le_pos; lra). lra.
  - intros i Hi. destruct (U1 i Hi) as (_ & UK). eapply Rle_trans; [|exact (RT i Hi)]. apply Rmult_le_compat_l; [lra|].
    rewrite <- Rmult_assoc. apply Rmult_le_compat_r; lra.
  - intros i Hi. destruct (U1 i Hi) as (_ & UK). pose proof (sq_nonneg (last_gap (fu_W u) (fu_T u))) as GN. destruct (SO i Hi) as (S1 & S2).
    split; [eapply Rle_trans; [|exact S1]|eapply Rle_trans; [|exact S2]]; (apply Rmult_le_compat_l; [lra|]; rewrite <- (Rmult_assoc (1001/1000)); apply Rmult_le_compat_r; [exact GN|lra]).
Qed.
End Errand.

Lemma h_motion_flush (D F : Type) (A : arith D F) M (c : ctrl F) ax off sp :
  h_motion A M (c_flush A c) ax off sp = h_motion A M c ax off sp.
Proof. unfold c_flush. destruct (negb (c_isRunning c)); reflexivity. Qed.

Lemma errand_done : forall X M u a d v j, trig_ok X -> funit_ok X M u -> axis_limits X M a d v j -> forall w, float32 w (fu_W u) ->
  forall mt ops c recs, c_run (sf_arith X) M (c_init (sf_arith X) mt w) ops = Ok (c, recs) -> c_state c = ms_stopped ->
  forall ax off sp x f, float64 off x -> speed_is sp (c_fo c) f -> errand u a d v j c ax x f ->
  exists p g l (n : nat) cn, let c0 := do_action (sf_arith X) M c (DoMove ax off sp) in
    (forall i, (i < 3)%nat -> float32 (reported X M c i) (p i) /\ Rabs (fu_k u i * p i - counted c i) <= / 16) /\
    executes u g (axis_path p ax x) l /\ limits_of a d ax f l /\
    (forall j, (j < n)%nat -> exists cj, ticks_run (sf_arith X) M j c0 = Ok cj /\ under_way u p [g] cj j) /\
    ticks_run (sf_arith X) M n c0 = Ok cn /\ all_done u p [g] cn n /\ idle X cn w (c_fo c) /\
    Rabs (counted cn ax - (counted c ax + fu_k u ax * x)) <= reach (fu_B u) (fu_H u) + / 16 /\
    (reach (fu_B u) (fu_H u) < 15/16 -> forall i, (i < 3)%nat -> i <> ax -> nth i (c_pos cn) 0%Z = nth i (c_pos c) 0%Z).
Proof.
  intros X M u a d v j TO UO AL w FW mt ops c recs HR HS ax off sp x f FO FS ER. set (A := sf_arith X).
  pose proof (fun i Hi => errand_room X M u a d v j UO c ax x f i ER Hi) as ROOM.
  assert (RPi : forall i, (i < 3)%nat -> exists r, float32 (reported X M c i) r /\ Rabs (fu_k u i * r - counted c i) <= Rabs (counted c i) / 16777216).
  { intros i Hi. apply reported_fin; auto; [apply (fu_steps _ _ _ UO i Hi)|apply (er_steps _ _ _ _ _ _ _ _ _ ER i Hi)]. }
  destruct (RPi 0%nat ltac:(lia)) as (p0 & P0). destruct (RPi 1%nat ltac:(lia)) as (p1 & P1). destruct (RPi 2%nat ltac:(lia)) as (p2 & P2).
  set (p := fun i => nth i [p0; p1; p2] 0).
  assert (RP : forall i, (i < 3)%nat -> float32 (reported X M c i) (p i) /\ Rabs (fu_k u i * p i - counted c i) <= Rabs (counted c i) / 16777216) by (intros [|[|[|i]]] Hi; [assumption..|lia]).
  clearbody p. clear P0 P1 P2.
  assert (RQ : forall i, (i < 3)%nat -> Rabs (fu_k u i * p i - counted c i) <= / 16).
  { intros i Hi. destruct (RP i Hi) as (_ & E). pose proof (ROOM i Hi) as RO. apply IZR_le in RO. rewrite abs_IZR in RO. fold (counted c i) in RO. lra. }
  destruct (single_straight X M u a d v j UO AL c ax off sp x f p FO FS ER RP) as (l & SG & LI).
  pose proof (er_length _ _ _ _ _ _ _ _ _ ER) as LN. pose proof (er_axis _ _ _ _ _ _ _ _ _ ER) as Hax.
  destruct (flush_job X M u TO UO w FW mt ops c recs HR HS p [mkFQ (h_motion A M c ax off sp) (axis_path p ax x) l]) as (c0 & legs & n & cn & R1 & R2 & R3 & R4 & R5 & R6).
  { constructor; [left; exact SG|constructor]. } { discriminate. } { cbn; lia. }
  { cbn [map joined fq_P]. split; [|exact I]. intros i Hi. unfold path_pos, axis_path, linear_pos. cbn [pa_arc pa_start pa_delta pa_len]. replace (fu_k u i * _) with 0; [rewrite Rabs_R0; lra|]. unfold Rdiv. ring. }
  { intros i Hi. specialize (RQ i Hi). lra. }
  inversion R2 as [|g q legs' qs' EX EN]; subst. inversion EN; subst. cbn [fq_P fq_l] in EX.
  assert (E0 : do_action A M c (DoMove ax off sp) = c0).
  { cbn [map app fq_m c_run c_step rbind] in R1. injection R1 as R1. rewrite <- R1. cbn [do_action]. cbv zeta. rewrite h_motion_flush. reflexivity. }
  assert (EE : forall i, (i < 3)%nat -> end_of p (map lg_path [g]) i = p i + (if Nat.eqb i ax then x else 0)).
  { intros i Hi. cbn [map end_of]. destruct EX as (-> & _). unfold path_pos, axis_path, linear_pos. cbn [pa_arc pa_start pa_delta pa_len]. field. lra. }
  exists p, g, l, n, cn. cbv zeta. rewrite E0. split; [intros i Hi; split; [apply RP; auto|apply RQ; auto]|]. split; [exact EX|]. split; [exact LI|]. do 4 (split; [assumption|]).
  destruct R5 as (S1 & S2 & S3 & S4). split.
  - specialize (S3 ax Hax). rewrite EE, Nat.eqb_refl in S3 by auto. specialize (RQ ax Hax). apply Rabs_le_inv in S3. apply Rabs_le_inv in RQ. apply Rabs_le. lra.
  - intros RE i Hi N. apply (landing_lemma u p [g] cn n i); [split; auto|exact Hi|]. rewrite EE by auto. rewrite (proj2 (Nat.eqb_neq i ax) N), Rplus_0_r. fold (counted c i). specialize (RQ i Hi). lra.
Qed.

(** The homing motions of the firmware, from anywhere within 60 mm. *)
Lemma errand_example X : let A := sf_arith X in let M := cnc3axis A in let H := cnc3axis_homing A in let a := fun _ : nat => 200 in let v := fun _ : nat => 30 in
  axis_limits X M a a v 600 /\ (forall u, u = ex_far \/ u = ex_near -> funit_ok X M u /\ float32 (tickWidth A) (fu_W u)) /\
  reach (fu_B ex_near) (fu_H ex_near) < 15/16 /\
  forall c : ctrl sf, c_fo c = nofZ (aF A) 1 -> (forall i, (i < 3)%nat -> Rabs (counted c i) <= 12000) ->
    (seek A H 0 = [DoMove 0 (nofZ (aD A) 300) (nofZ (aD A) 10)] /\ float64 (nofZ (aD A) 300) 300 /\ speed_is (nofZ (aD A) 10) (c_fo c) 10 /\ errand ex_far a a v 600 c 0 300 10) /\
    (seek A H 2 = [DoMove 2 (nofZ (aD A) 60) (nofZ (aD A) 10)] /\ float64 (nofZ (aD A) 60) 60 /\ errand ex_near a a v 600 c 2 60 10) /\
    (clear A H 2 = [DoMove 2 (nofZ (aD A) (-3)) (nofZ (aD A) 10)] /\ float64 (nofZ (aD A) (-3)) (-3) /\ errand ex_near a a v 600 c 2 (-3) 10).
Proof.
  cbv zeta. destruct (limits_example X) as (AL & _). split; [exact AL|]. split.
  { destruct (job_example X) as (_ & FT & UO & _). intros u [-> | ->]; (split; [|exact FT]); destruct UO as [U1 U2 U3 U4]; constructor; auto;
      unfold ex_far, ex_near, ex_u in *; cbn [fu_B fu_H fu_W fu_T fu_k] in *; lra. }
  split. { unfold reach, slack. cbn. lra. }
  intros c FC CB. assert (LEN : forall z : R, 0 <= z -> Rabs z = z) by (intros; now apply Rabs_pos_eq).
  assert (R1 : Rabs 300 = 300) by (apply LEN; lra). assert (R2 : Rabs 60 = 60) by (apply LEN; lra). assert (R3 : Rabs (-3) = 3) by (rewrite Rabs_left; lra).
  split; [|split]; (split; [vm_compute; reflexivity|]); (split; [apply (float64_lit X); lia|]).
  1: split; [exists 10, 1; split; [apply (float64_lit X 10); lia|]; split; [lra|]; split; [rewrite FC; apply fin_float32, (fin_lit X 1); lia|lra]|].
  all: constructor; rewrite ?R1, ?R2, ?R3; unfold tick_gap, last_gap, ex_far, ex_near; cbn [fu_B fu_H fu_W fu_T fu_k]; try lia; try (intros; lra).
  all: try (split; [exists 10; split; [right; exists 10; split; [reflexivity|lra]|intros; lra]|exists 10; split; [lra|]; split; [intros; lra|]; split; [intros g E; injection E as <-; lra|lra]]).
  all: intros i Hi; specialize (CB i Hi); lra.
Qed.
