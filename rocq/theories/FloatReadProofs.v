(** The text of a program of straight motions, read in double precision and executed in
    single precision: the parser's part. *)
Require Import List Arith NArith ZArith Bool Reals Lra Lia ZifyBool ZifyNat ZifyN.
From Coq Require Import Floats.SpecFloat.
From Flocq Require Import Zaux Raux Defs Generic_fmt FLT Float_prop Round_NE Ulp Round_pred Relative Plus_error BinarySingleNaN.
From Verif Require Import Base BaseProofs Num NumR NumSF MotionModel CtrlModel CtrlSpec ProfileSpec GeomSpec RunSpec GcodeModel GcodeSpec GcodeRSpec GText GMeaningProofs GLineProofs.
From Verif Require Import FloatSpec FloatRunSpec FloatProgSpec GStageProofs FloatProofs FloatClockProofs FloatTrackProofs FloatErrProofs FloatPlanProofs FloatJobProofs FloatLimitProofs.
Import ListNotations.
Open Scope R_scope.

(** *** What the parser computes for a straight motion, in any arithmetic. *)
Section Any.
Context {D : Type} (K : num D) (pi : D).
Local Notation zero := (nofZ K 0).
Lemma line_not_helical t : is_line_type t -> is_helical t = false.
Proof. intros [-> | ->]; reflexivity. Qed.
Lemma straight_calc b (s s' : @gstate D) m m' : is_line_type (sm_type m) -> calcMotion K pi b s m = Ok (s', m') ->
  sm_arc0 m' = 3%nat /\ sm_arc1 m' = 3%nat /\ sm_radius m' = sm_radius m /\
  sm_length m' = nsqrt K (nadd K (nadd K (nadd K (sqd K (nmul K (sm_radius m) (nabs K zero))) (sqd K (nthZ K (sm_delta m') 0))) (sqd K (nthZ K (sm_delta m') 1))) (sqd K (nthZ K (sm_delta m') 2))) /\
  (sm_type m' = traverse -> sm_vFeed m' = ninf K) /\
  (sm_type m' = feedLinear -> sm_vFeed m' = match s_feed s with G93 => ndiv K (nmul K (sm_length m') (letter K s LtF)) (nofZ K 60) | G94 => ndiv K (in_mm K s (letter K s LtF)) (nofZ K 60) end).
Proof.
  intros LT H. pose proof (line_not_helical _ LT) as NH. unfold calcMotion, calcNextPosition in H. cbn beta iota zeta in H. unfold calcArcCenterAndRadius in H.
  unfold setArcAxisFromPlane in H. cbn [sm_type] in H. rewrite NH in H. cbn [sm_arc0 sm_arc1 sm_type] in H. cbn [Nat.ltb Nat.leb andb] in H.
  destruct (hasOffset b); [discriminate|]. destruct (hasRadius b); [discriminate|]. cbn [rbind] in H. unfold calcArcAngles in H. cbn [sm_type] in H. rewrite NH in H.
  set (S := st_next _ s) in H. assert (ES : s_feed S = s_feed s /\ letter K S LtF = letter K s LtF /\ in_mm K S (letter K s LtF) = in_mm K s (letter K s LtF)) by (repeat split). clearbody S. destruct ES as (E1 & E2 & E3).
  injection H as _ <-.
  match goal with |- context [calcTrajectoryLength K ?x] => set (mm := x) end.
  assert (G : forall m4, m4 = calcTrajectoryLength K mm -> let m5 := calcPeripherals K S (calcSpeedAndOrDuration K S m4) in
    sm_arc0 m5 = sm_arc0 m4 /\ sm_arc1 m5 = sm_arc1 m4 /\ sm_radius m5 = sm_radius m4 /\ sm_length m5 = sm_length m4 /\ sm_delta m5 = sm_delta m4 /\ sm_type m5 = sm_type m4 /\
    sm_vFeed m5 = sm_vFeed (calcSpeedAndOrDuration K S m4)).
  { intros m4 _. cbv zeta. unfold calcPeripherals. destruct (s_spindle S); cbn [sm_arc0 sm_arc1 sm_radius sm_length sm_delta sm_type sm_vFeed]; unfold calcSpeedAndOrDuration;
    (destruct (match sm_type m4 with traverse => _ | _ => _ end)); cbn [sm_arc0 sm_arc1 sm_radius sm_length sm_delta sm_type sm_vFeed]; repeat split. }
  specialize (G _ eq_refl). cbv zeta in G. set (m5 := calcPeripherals K S _) in *. clearbody m5. destruct G as (G1 & G2 & G3 & G4 & G5 & G6 & G7). rewrite G1, G2, G3, G4, G5, G6, G7. clear G1 G2 G3 G4 G5 G6 G7.
  split; [reflexivity|]. split; [reflexivity|]. split; [reflexivity|]. split; [reflexivity|].
  split; (intro T; change (sm_type (calcTrajectoryLength K mm)) with (sm_type m) in T; unfold calcSpeedAndOrDuration; change (sm_type (calcTrajectoryLength K mm)) with (sm_type m); rewrite T); [reflexivity|].
  cbn [sm_vFeed]. rewrite E1, E2, E3. destruct (s_feed s); reflexivity.
Qed.
End Any.

(** *** The square root of a rounded square is no less than the number. *)
Lemma valid53 : Valid_exp (SpecFloat.fexp 53 1024). Proof. exact valid_exp53. Qed.
Lemma rnd53_mono x y : x <= y -> rnd53 x <= rnd53 y.
Proof. apply round_le; [exact valid53|apply valid_rnd_N]. Qed.
Lemma rnd53_id x : generic_format radix2 (SpecFloat.fexp 53 1024) x -> rnd53 x = x.
Proof. apply round_generic. apply valid_rnd_N. Qed.
Lemma rnd53_format x : generic_format radix2 (SpecFloat.fexp 53 1024) (rnd53 x).
Proof. apply generic_format_round; [exact valid53|apply valid_rnd_N]. Qed.
Lemma fexp53 e : (-1000 <= e)%Z -> SpecFloat.fexp 53 1024 e = (e - 53)%Z.
Proof. intro H. unfold SpecFloat.fexp, SpecFloat.emin. lia. Qed.
Lemma sqrt_square d : generic_format radix2 (SpecFloat.fexp 53 1024) d -> bpow radix2 (-200) <= d -> d <= rnd53 (sqrt (rnd53 (d * d))).
Proof.
  intros F LO. assert (P200 : 0 < bpow radix2 (-200)) by apply bpow_gt_0. assert (D0 : 0 < d) by lra. assert (DN : d <> 0) by lra.
  set (y := rnd53 (d * d)). destruct (Rle_or_lt (d * d) y) as [C|C].
  - apply round_ge_generic; [exact valid53|apply valid_rnd_N|exact F|]. rewrite <- (sqrt_square d) at 1 by lra. apply sqrt_le_1_alt. exact C.
  - pose proof (bpow_mag_le radix2 d DN) as M1. pose proof (bpow_mag_gt radix2 d) as M2. rewrite (Rabs_pos_eq d) in M1, M2 by lra.
    destruct (mag radix2 d) as (e & HE). cbn [mag_val] in M1, M2. clear HE.
    assert (EL : (-200 < e)%Z). { apply (lt_bpow radix2). lra. }
    assert (G2 : generic_format radix2 (SpecFloat.fexp 53 1024) (bpow radix2 (2 * e - 2))) by (apply generic_format_bpow; rewrite fexp53; lia).
    assert (SQ : bpow radix2 (e - 1) * bpow radix2 (e - 1) = bpow radix2 (2 * e - 2)) by (rewrite <- bpow_plus; f_equal; lia).
    assert (PE : 0 < bpow radix2 (e - 1)) by apply bpow_gt_0.
    destruct (Req_dec d (bpow radix2 (e - 1))) as [E|NE].
    { exfalso. unfold y in C. rewrite E, SQ, rnd53_id in C by exact G2. lra. }
    assert (DE : bpow radix2 (e - 1) < d) by lra.
    assert (YL : bpow radix2 (2 * e - 2) <= y). { apply round_ge_generic; [exact valid53|apply valid_rnd_N|exact G2|]. rewrite <- SQ. apply Rmult_le_compat; lra. }
    assert (SY : bpow radix2 (e - 1) <= sqrt y). { rewrite <- (sqrt_square (bpow radix2 (e - 1))) by lra. apply sqrt_le_1_alt. rewrite SQ. exact YL. }
    assert (Y0 : 0 <= y) by (apply Rle_trans with (bpow radix2 (2 * e - 2)); [apply bpow_ge_0|exact YL]).
    assert (MD : mag radix2 d = e :> Z). { apply mag_unique. rewrite Rabs_pos_eq by lra. lra. }
    pose proof (mag_mult radix2 d d DN DN) as (M3 & M4). rewrite MD in M3, M4.
    assert (DD : d * d <> 0) by (apply Rgt_not_eq, Rmult_lt_0_compat; lra).
    pose proof (@error_le_half_ulp radix2 (SpecFloat.fexp 53 1024) valid53 (fun z => negb (Z.even z)) (d * d)) as ER. fold y in ER. rewrite ulp_neq_0 in ER by exact DD. unfold cexp in ER. rewrite fexp53 in ER by lia.
    assert (B2 : bpow radix2 (mag radix2 (d * d) - 53) <= bpow radix2 (2 * e - 53)) by (apply bpow_le; lia).
    apply Rabs_le_inv in ER.
    assert (SS : sqrt y * sqrt y = y) by (apply sqrt_sqrt; exact Y0).
    assert (B3 : bpow radix2 (2 * e - 53) = 2 * (bpow radix2 (e - 54) * bpow radix2 e)).
    { rewrite <- bpow_plus. change 2 with (bpow radix2 1). rewrite <- bpow_plus. f_equal. lia. }
    assert (B4 : bpow radix2 e = 2 * bpow radix2 (e - 1)). { change 2 with (bpow radix2 1). rewrite <- bpow_plus. f_equal. lia. }
    assert (P54 : 0 < bpow radix2 (e - 54)) by apply bpow_gt_0.
    assert (GAP : d - sqrt y < bpow radix2 (e - 54)).
    { apply Rnot_le_lt. intro G. assert ((d - sqrt y) * (d + sqrt y) <= bpow radix2 (e - 54) * bpow radix2 e) as G1.
      { replace ((d - sqrt y) * (d + sqrt y)) with (d * d - sqrt y * sqrt y) by ring. rewrite SS. lra. }
      assert (bpow radix2 (e - 54) * bpow radix2 e < (d - sqrt y) * (d + sqrt y)) as G3; [|lra].
      apply Rlt_le_trans with (bpow radix2 (e - 54) * (d + sqrt y)); [apply Rmult_lt_compat_l; lra|apply Rmult_le_compat_r; lra]. }
    apply round_N_ge_midp; [exact valid53|exact F|]. rewrite pred_eq_pos by lra. unfold pred_pos. rewrite MD. rewrite Req_bool_false by exact NE.
    rewrite ulp_neq_0 by exact DN. unfold cexp. rewrite MD, fexp53 by lia.
    assert (bpow radix2 (e - 53) = 2 * bpow radix2 (e - 54)). { change 2 with (bpow radix2 1). rewrite <- bpow_plus. f_equal. lia. }
    lra.
Qed.

(** *** Lengths. *)
Definition E53 : R := / 9007199254740992.
Lemma rnd53_rel x : x = 0 \/ bpow radix2 (-500) <= Rabs x -> Rabs (rnd53 x - x) <= E53 * Rabs x.
Proof.
  intros [-> | H].
  - rewrite rnd53_id by apply generic_format_0. rewrite Rminus_0_r, Rabs_R0. lra.
  - pose proof (relative_error_N_FLT radix2 (-1074) 53 prec53 (fun z => negb (Z.even z)) x) as E.
    change (round radix2 (FLT_exp (-1074) 53) (Znearest (fun z : Z => negb (Z.even z))) x) with (rnd53 x) in E.
    eapply Rle_trans; [apply E|].
    + eapply Rle_trans; [|exact H]. apply bpow_le. lia.
    + change (bpow radix2 (- (53) + 1)) with (/ 4503599627370496). unfold E53. pose proof (Rabs_pos x). lra.
Qed.
Lemma sq_nonneg x : 0 <= x * x. Proof. apply Rle_0_sqr. Qed.
Lemma sqrt_close x y e : 0 <= x -> 0 < y -> 0 <= e -> Rabs (x - y) <= e * y -> Rabs (sqrt x - sqrt y) <= e * sqrt y.
Proof.
  intros X0 Y0 E0 H. pose proof (sqrt_pos x) as SX. pose proof (sqrt_lt_R0 y Y0) as SY. pose proof (sqrt_sqrt x X0) as XX. pose proof (sqrt_sqrt y (Rlt_le _ _ Y0)) as YY.
  set (a := sqrt x) in *. set (b := sqrt y) in *.
  assert (Q : Rabs (a - b) * (a + b) <= e * b * b). { rewrite <- (Rabs_pos_eq (a + b)) by lra. rewrite <- Rabs_mult. replace ((a - b) * (a + b)) with (x - y) by (rewrite <- XX, <- YY; ring). rewrite Rmult_assoc, YY. exact H. }
  apply (Rmult_le_reg_r (a + b)); [lra|]. eapply Rle_trans; [exact Q|]. apply Rmult_le_compat_l; [apply Rmult_le_pos; lra|lra].
Qed.
Section Length.
Variables (X : sf_funs) (rr x0 x1 x2 : sf) (r d0 d1 d2 : R).
Notation K := (g_f X).
Hypothesis FR : fin64 rr r.
Hypothesis F0 : fin64 x0 d0.
Hypothesis F1 : fin64 x1 d1.
Hypothesis F2 : fin64 x2 d2.
Let S := d0 * d0 + d1 * d1 + d2 * d2.
Hypothesis SB : / 1000000000 <= S <= 900000000000.
Let y := nsqrt K (nadd K (nadd K (nadd K (sqd K (nmul K rr (nabs K (nofZ K 0)))) (sqd K x0)) (sqd K x1)) (sqd K x2)).
Lemma length_near : exists len, fin64 y len /\ Rabs (len - sqrt S) <= 10 * E53 * sqrt S /\
  forall d, (d = d0 \/ d = d1 \/ d = d2) -> (d = 0 \/ bpow radix2 (-200) <= Rabs d) -> Rabs d <= len.
Proof.
  pose proof (sq_nonneg d0) as N0. pose proof (sq_nonneg d1) as N1. pose proof (sq_nonneg d2) as N2. unfold S in *.
  assert (SQ : forall x d, fin64 x d -> d * d <= 900000000000 -> fin64 (sqd K x) (rnd53 (d * d))).
  { intros x d F B. refine (fin_mul _ _ prec53 max53 _ _ _ _ F F _). apply small53. rewrite Rabs_pos_eq; [lra|apply sq_nonneg]. }
  assert (Z : fin64 (nofZ K 0) 0) by apply fin_zero.
  assert (A0 : fin64 (nmul K rr (nabs K (nofZ K 0))) 0).
  { pose proof (fin_mul _ _ prec53 max53 _ _ _ _ FR (fin_abs _ _ _ _ Z)) as Q. rewrite Rabs_R0, Rmult_0_r in Q. rewrite rnd53_id in Q by apply generic_format_0. apply Q. apply small53. rewrite Rabs_R0. lra. }
  assert (A1 : fin64 (sqd K (nmul K rr (nabs K (nofZ K 0)))) 0).
  { pose proof (SQ _ _ A0) as Q. rewrite Rmult_0_r in Q. rewrite rnd53_id in Q by apply generic_format_0. apply Q. lra. }
  pose proof (SQ _ _ F0 ltac:(lra)) as S0. pose proof (SQ _ _ F1 ltac:(lra)) as S1. pose proof (SQ _ _ F2 ltac:(lra)) as S2.
  pose proof (rnd53_err (d0 * d0)) as E0. pose proof (rnd53_err (d1 * d1)) as E1. pose proof (rnd53_err (d2 * d2)) as E2.
  assert (PO : forall x, 0 <= x -> 0 <= rnd53 x). { intros x Hx. apply round_ge_generic; [exact valid53|apply valid_rnd_N|apply generic_format_0|exact Hx]. }
  pose proof (PO _ N0) as P0. pose proof (PO _ N1) as P1. pose proof (PO _ N2) as P2.
  rewrite (Rabs_pos_eq (d0 * d0)) in E0 by exact N0. rewrite (Rabs_pos_eq (d1 * d1)) in E1 by exact N1. rewrite (Rabs_pos_eq (d2 * d2)) in E2 by exact N2.
  apply Rabs_le_inv in E0, E1, E2. unfold eta in *.
  set (a0 := d0 * d0) in *. set (a1 := d1 * d1) in *. set (a2 := d2 * d2) in *.
  assert (B0 : rnd53 a0 <= 900000000001) by lra. assert (B1 : rnd53 a1 <= 900000000001) by lra. assert (B2 : rnd53 a2 <= 900000000001) by lra.
  assert (T0 : fin64 (nadd K (sqd K (nmul K rr (nabs K (nofZ K 0)))) (sqd K x0)) (rnd53 a0)).
  { pose proof (fin_add _ _ prec53 max53 _ _ _ _ A1 S0) as Q. rewrite Rplus_0_l in Q.
    rewrite (rnd53_id (rnd53 a0)) in Q by apply rnd53_format. apply Q. apply small53. rewrite Rabs_pos_eq; lra. }
  assert (T1 := fin_add _ _ prec53 max53 _ _ _ _ T0 S1 ltac:(apply small53; rewrite Rabs_pos_eq; lra)).
  pose proof (rnd53_err (rnd53 a0 + rnd53 a1)) as E3. rewrite (Rabs_pos_eq (rnd53 a0 + rnd53 a1)) in E3 by lra. apply Rabs_le_inv in E3. pose proof (PO (rnd53 a0 + rnd53 a1) ltac:(lra)) as P3.
  set (b1 := rnd53 (rnd53 a0 + rnd53 a1)) in *. unfold eta in *.
  assert (T2 := fin_add _ _ prec53 max53 _ _ _ _ T1 S2 ltac:(apply small53; rewrite Rabs_pos_eq; lra)).
  pose proof (rnd53_err (b1 + rnd53 a2)) as E4. rewrite (Rabs_pos_eq (b1 + rnd53 a2)) in E4 by lra. apply Rabs_le_inv in E4. pose proof (PO (b1 + rnd53 a2) ltac:(lra)) as P4.
  assert (M4 : forall d, d = d0 \/ d = d1 \/ d = d2 -> rnd53 (d * d) <= rnd53 (b1 + rnd53 a2)).
  { assert (b1 <= rnd53 (b1 + rnd53 a2)). { replace b1 with (rnd53 b1) at 1 by (apply rnd53_id, rnd53_format). apply rnd53_mono. lra. }
    assert (rnd53 a0 <= b1). { replace (rnd53 a0) with (rnd53 (rnd53 a0)) by (apply rnd53_id, rnd53_format). apply rnd53_mono. lra. }
    assert (rnd53 a1 <= b1). { replace (rnd53 a1) with (rnd53 (rnd53 a1)) by (apply rnd53_id, rnd53_format). apply rnd53_mono. lra. }
    assert (rnd53 a2 <= rnd53 (b1 + rnd53 a2)). { replace (rnd53 a2) with (rnd53 (rnd53 a2)) at 1 by (apply rnd53_id, rnd53_format). apply rnd53_mono. lra. }
    intros d [->|[->| ->]]; fold a0 a1 a2; lra. }
  set (b2 := rnd53 (b1 + rnd53 a2)) in *. unfold eta in *.
  assert (T3 := fin_sqrt _ _ prec53 max53 _ _ T2 P4).
  exists (rnd53 (sqrt b2)). split; [exact T3|]. split.
  - assert (C : Rabs (b2 - (a0 + a1 + a2)) <= 5 * E53 * (a0 + a1 + a2)). { apply Rabs_le. unfold E53. lra. }
    pose proof (sqrt_close b2 (a0 + a1 + a2) (5 * E53) P4 ltac:(lra) ltac:(unfold E53; lra) C) as Q. apply Rabs_le_inv in Q.
    pose proof (rnd53_err (sqrt b2)) as E5. pose proof (sqrt_pos b2). rewrite (Rabs_pos_eq (sqrt b2)) in E5 by auto. apply Rabs_le_inv in E5.
    assert (SL : / 100000 <= sqrt (a0 + a1 + a2)). { rewrite <- (sqrt_Rsqr (/ 100000)) by lra. apply sqrt_le_1_alt. unfold Rsqr. lra. }
    apply Rabs_le. unfold E53, eta in *. lra.
  - intros d DD [-> |DB].
    + rewrite Rabs_R0. apply PO, sqrt_pos.
    + eapply Rle_trans; [apply (sqrt_square (Rabs d)); [|exact DB]|].
      * destruct DD as [->|[->| ->]]; apply generic_format_abs; [destruct F0 as (b & _ & _ & <-)|destruct F1 as (b & _ & _ & <-)|destruct F2 as (b & _ & _ & <-)]; apply (generic_format_B2R 53 1024).
      * apply rnd53_mono. apply sqrt_le_1_alt. replace (Rabs d * Rabs d) with (d * d) by (rewrite <- Rabs_mult; symmetry; apply Rabs_pos_eq, sq_nonneg). apply M4. exact DD.
Qed.
End Length.

(** *** From one position to the next. *)
Lemma float64_fin x r : fin64 x r -> float64 x r.
Proof.
  intros (b & <- & F & <-). split; [apply valid_binary_B2SF|]. destruct b as [s|s| |s m e B]; try discriminate; [reflexivity|].
  unfold B2SF, sf_val, B2R, F2R. cbn [Fnum Fexp]. rewrite bpow_val. destruct s; cbn [SpecFloat.cond_Zopp cond_Zopp]; do 2 f_equal; [|lra].
  change (Z.neg m) with (- Z.pos m)%Z. rewrite opp_IZR. lra.
Qed.
Lemma distance_ge p q i : (i < 3)%nat -> Rabs (q i - p i) <= distance p q.
Proof.
  intro H. rewrite <- sqrt_Rsqr_abs. apply sqrt_le_1_alt. unfold Rsqr, sq. pose proof (sq_nonneg (q 0%nat - p 0%nat)). pose proof (sq_nonneg (q 1%nat - p 1%nat)). pose proof (sq_nonneg (q 2%nat - p 2%nat)).
  destruct i as [|[|[|i]]]; [lra..|lia].
Qed.
Section Step.
Variables (X : sf_funs) (rr : sf) (r : R) (xp xq : list sf) (p q : nat -> R).
Notation K := (g_f X).
Hypothesis FR : fin64 rr r.
Hypothesis AP : at64 X xp p.
Hypothesis AQ : at64 X xq q.
Hypothesis DB : / 4096 <= distance p q <= 499999.
Hypothesis DN : forall i, (i < 3)%nat -> q i = p i \/ distance p q <= 100000000000000000000000 * Rabs (q i - p i).
Let dx i := nsub K (coord_at K xq i) (coord_at K xp i).
Let d i := rnd53 (q i - p i).
Lemma delta_near i : (i < 3)%nat -> fin64 (dx i) (d i) /\ Rabs (d i - (q i - p i)) <= E53 * Rabs (q i - p i) /\ (d i = 0 \/ bpow radix2 (-200) <= Rabs (d i)).
Proof.
  intro Hi. pose proof (distance_ge p q i Hi) as G. pose proof (fin_float64 _ _ (AP i Hi)) as F1. pose proof (fin_float64 _ _ (AQ i Hi)) as F2.
  assert (N0 : 0 < bpow radix2 (-200) < / 1000000000000000000000000000000).
  { split; [apply bpow_gt_0|]. apply Rlt_trans with (bpow radix2 (-100)); [apply bpow_lt; lia|]. change (bpow radix2 (-100)) with (/ 1267650600228229401496703205376). lra. }
  split; [|split].
  - apply (fin_sub _ _ prec53 max53); auto. apply small53. lra.
  - apply rnd53_rel. destruct (DN i Hi) as [E|E]; [left; lra|right].
    apply Rle_trans with (bpow radix2 (-200)); [apply bpow_le; lia|]. lra.
  - destruct (DN i Hi) as [E|E].
    + left. unfold d. rewrite E, Rminus_eq_0. apply rnd53_id, generic_format_0.
    + right. pose proof (rnd53_err (q i - p i)) as R1. fold (d i) in R1. pose proof (Rabs_triang_inv (q i - p i) (d i)) as R2. rewrite (Rabs_minus_sym (q i - p i)) in R2. unfold eta in R1. lra.
Qed.
Lemma step_near : exists len, fin64 (nsqrt K (nadd K (nadd K (nadd K (sqd K (nmul K rr (nabs K (nofZ K 0)))) (sqd K (dx 0%nat))) (sqd K (dx 1%nat))) (sqd K (dx 2%nat)))) len /\
  Rabs (len - distance p q) <= 20 * E53 * distance p q /\ (forall i, (i < 3)%nat -> Rabs (d i) <= len) /\ exists i, (i < 3)%nat /\ len <= 2 * Rabs (d i).
Proof.
  destruct (delta_near 0 ltac:(lia)) as (F0 & E0 & Z0). destruct (delta_near 1 ltac:(lia)) as (F1 & E1 & Z1). destruct (delta_near 2 ltac:(lia)) as (F2 & E2 & Z2).
  set (S := d 0%nat * d 0%nat + d 1%nat * d 1%nat + d 2%nat * d 2%nat). set (S' := sq (q 0%nat - p 0%nat) + sq (q 1%nat - p 1%nat) + sq (q 2%nat - p 2%nat)).
  assert (SQ : forall x y, Rabs (x - y) <= E53 * Rabs y -> Rabs (x * x - y * y) <= 3 * E53 * (y * y)).
  { intros x y H. replace (x * x - y * y) with ((x - y) * (x + y)) by ring. rewrite Rabs_mult.
    assert (Rabs (x + y) <= 3 * Rabs y). { replace (x + y) with ((x - y) + 2 * y) by ring. eapply Rle_trans; [apply Rabs_triang|]. rewrite (Rabs_mult 2), (Rabs_pos_eq 2) by lra. unfold E53 in H. pose proof (Rabs_pos y). lra. }
    eapply Rle_trans; [apply Rmult_le_compat; [apply Rabs_pos|apply Rabs_pos|exact H|exact H0]|]. right. replace (y * y) with (Rabs y * Rabs y) by (rewrite <- Rabs_mult; apply Rabs_pos_eq, sq_nonneg). ring. }
  assert (CS : Rabs (S - S') <= 3 * E53 * S').
  { pose proof (SQ _ _ E0) as Q0. pose proof (SQ _ _ E1) as Q1. pose proof (SQ _ _ E2) as Q2. apply Rabs_le_inv in Q0, Q1, Q2. unfold S, S', sq. apply Rabs_le. lra. }
  assert (DD : distance p q * distance p q = S'). { unfold distance. fold S'. apply sqrt_sqrt. unfold S', sq. pose proof (sq_nonneg (q 0%nat - p 0%nat)). pose proof (sq_nonneg (q 1%nat - p 1%nat)). pose proof (sq_nonneg (q 2%nat - p 2%nat)). lra. }
  assert (SB : / 20000000 <= S' <= 499999 * 499999). { rewrite <- DD. split; [apply Rle_trans with (/ 4096 * / 4096); [lra|apply Rmult_le_compat; lra]|apply Rmult_le_compat; lra]. }
  pose proof CS as CS'. apply Rabs_le_inv in CS'. unfold E53 in CS'.
  destruct (length_near X rr _ _ _ r _ _ _ FR F0 F1 F2) as (len & FL & LN & LD). { fold S. lra. } fold S in LN.
  pose proof (sqrt_close S S' (3 * E53) ltac:(lra) ltac:(lra) ltac:(unfold E53; lra) CS) as RS. change (sqrt S') with (distance p q) in RS.
  apply Rabs_le_inv in RS. apply Rabs_le_inv in LN. exists len. split; [exact FL|].
  assert (LL : Rabs (len - distance p q) <= 20 * E53 * distance p q) by (apply Rabs_le; unfold E53 in *; lra).
  split; [exact LL|]. split.
  - intros i Hi. destruct i as [|[|[|i]]]; [apply LD; auto..|lia].
  - apply Rabs_le_inv in LL.
    destruct (Rle_or_lt len (2 * Rabs (d 0%nat))) as [C0|C0]; [exists 0%nat; split; [lia|auto]|].
    destruct (Rle_or_lt len (2 * Rabs (d 1%nat))) as [C1|C1]; [exists 1%nat; split; [lia|auto]|].
    destruct (Rle_or_lt len (2 * Rabs (d 2%nat))) as [C2|C2]; [exists 2%nat; split; [lia|auto]|]. exfalso.
    assert (P : 0 < len) by (unfold E53 in LL; lra).
    assert (HQ : forall x, 2 * Rabs x < len -> 4 * (x * x) <= len * len).
    { intros x Hx. replace (x * x) with (Rabs x * Rabs x) by (rewrite <- Rabs_mult; apply Rabs_pos_eq, sq_nonneg). pose proof (Rabs_pos x). replace (4 * (Rabs x * Rabs x)) with ((2 * Rabs x) * (2 * Rabs x)) by ring. apply Rmult_le_compat; lra. }
    pose proof (HQ _ C0). pose proof (HQ _ C1). pose proof (HQ _ C2). fold S' in DD.
    assert (U : len * len <= (1001/1000 * distance p q) * (1001/1000 * distance p q)) by (apply Rmult_le_compat; unfold E53 in LL; lra).
    replace (1001 / 1000 * distance p q * (1001 / 1000 * distance p q)) with (1001/1000 * (1001/1000) * (distance p q * distance p q)) in U by ring. rewrite DD in U. unfold S in *. lra.
Qed.
End Step.

(** *** What a line does. *)
Section Read.
Context {D : Type} (K : num D) (pi : D).
Local Notation zero := (nofZ K 0).
Lemma read_line c m l c' m' : sized (g_st c) -> g_line K pi c m l = Ok (c', m') ->
  (~ made_motion c' m' /\ s_cur (g_st c') = s_cur (g_st c) /\ g_res c' <> OkContextUpdateAndMotion /\ sm_radius m' = sm_radius m) \/
  (made_motion c' m' /\ (is_line_type (sm_type m') -> sm_radius m' = sm_radius m /\ sm_arc0 m' = 3%nat /\ sm_arc1 m' = 3%nat /\ sm_start m' = s_cur (g_st c) /\
     let d := fun i => nsub K (coord_at K (s_cur (g_st c')) i) (coord_at K (s_cur (g_st c)) i) in
     sm_delta m' = map d [0; 1; 2]%nat /\
     sm_length m' = nsqrt K (nadd K (nadd K (nadd K (sqd K (nmul K (sm_radius m) (nabs K zero))) (sqd K (d 0%nat))) (sqd K (d 1%nat))) (sqd K (d 2%nat))))).
Proof.
  intros SZ H. destruct (line_parse _ _ _ _ _ _ _ H) as (b & E & _). assert (LW : line_words K l (b_words b)) by (exists b; auto).
  destruct (line_motion K pi c m l c' m' (b_words b) LW SZ H) as [(A & B & C)|(A & CO & (sP & b' & t & KO) & _)].
  - left. split; auto. split; auto. split; auto.
    destruct (line_cases K pi c m l c' m' _ LW SZ H) as [(_ & _ & _ & -> & _)|(_ & b1 & c0 & cH & cM & _ & _ & _ & _ & _ & _ & O)]; [reflexivity|].
    destruct O as [x c' m' D1 D2 D3 D4 D5 D6|g c' m' D1 D2 D3 D4 D5 D6 D7|g s' c' m' D1 D2 D3 D4 D5 D6 D7 D8 D9 D10 D11|c' m' D1 D2 D3 D4 D5 D6 D7 D8 D9|c' m' D1 D2 D3 D4 D5 D6 D7 D8]; try congruence.
    + exfalso. apply A. destruct (calcMotion_fields K pi _ _ _ _ _ D4) as (T & _). split; [rewrite T; destruct g; discriminate|congruence].
    + subst m'. reflexivity.
    + subst m'. reflexivity.
  - right. split; auto. intro LT. pose proof (k_calc _ _ _ _ _ _ _ _ _ _ KO) as KC.
    destruct (calcMotion_fields K pi _ _ _ _ _ KC) as (T & _). cbn [sm_type sm_with_type] in T.
    destruct (join_lemma K pi c m l c' m' SZ H) as [(N & _)|(_ & J1 & J2)]; [contradiction|].
    assert (LT' : is_line_type (sm_type (sm_with_type t (sm_with_type mt_none m)))) by (cbn [sm_type sm_with_type]; rewrite <- T; exact LT).
    destruct (straight_calc K pi _ _ _ _ _ LT' KC) as (S1 & S2 & S3 & S4 & _).
    split; [exact S3|]. split; auto. split; auto. split; auto. cbv zeta. split; auto. rewrite S4, J2. reflexivity.
Qed.
End Read.

(** *** One motion. *)
Section Leg.
Variables (X : sf_funs) (M : machine sf) (u : funit) (s : shop) (fo : sf).
Hypothesis UO : funit_ok X M u.
Hypothesis SO : shop_ok X M u s.
Notation K := (g_f X).
Lemma leg_straight m xp xq p q rr r f : is_line_type (sm_type m) -> sm_arc0 m = 3%nat -> sm_arc1 m = 3%nat -> sm_start m = xp ->
  let d := fun i => nsub K (coord_at K xq i) (coord_at K xp i) in
  sm_delta m = map d [0; 1; 2]%nat ->
  sm_length m = nsqrt K (nadd K (nadd K (nadd K (sqd K (nmul K rr (nabs K (nofZ K 0)))) (sqd K (d 0%nat))) (sqd K (d 1%nat))) (sqd K (d 2%nat))) ->
  float64 rr r -> at64 X xp p -> at64 X xq q -> leg_fits u s p q -> feed_fits s fo m f ->
  exists P l, straight X M fo u m P l /\ pa_arc P = None /\ (forall i, (i < 3)%nat -> pa_start P i = p i /\ Rabs (pa_delta P i - (q i - p i)) <= E53 * Rabs (q i - p i)) /\
    Rabs (pa_len P - distance p q) <= 20 * E53 * distance p q /\
    limits_kept (sh_a s) (sh_d s) (sh_v s) f (pa_delta P) (pa_len P) l /\ limits_used (sh_a s) (sh_d s) (sh_v s) f (pa_delta P) (pa_len P) l.
Proof.
  intros LT A0 A1 ES d ED EL FR AP AQ (LB & LR) FF.
  destruct SO as [S1 S2 S3 (R1 & R2 & R3 & R4 & R5) (J1 & J2) (B1 & B2) S7 S8 S9].
  assert (DB : / 4096 <= distance p q <= 499999) by lra.
  assert (DN : forall i, (i < 3)%nat -> q i = p i \/ distance p q <= 100000000000000000000000 * Rabs (q i - p i)) by (intros i Hi; apply (LR i Hi)).
  apply fin_float64 in FR.
  destruct (step_near X rr r xp xq p q FR AP AQ DB DN) as (len & FL & LN & LD & (im & Him & LM)).
  pose proof (fun i Hi => delta_near X xp xq p q AP AQ DB DN i Hi) as DL.
  set (dl := fun i => rnd53 (q i - p i)). change (forall i, (i < 3)%nat -> Rabs (dl i) <= len) in LD. change (len <= 2 * Rabs (dl im)) in LM.
  pose proof LN as LN'. apply Rabs_le_inv in LN'. unfold E53 in LN'.
  assert (FD : forall i, (i < 3)%nat -> float64 (nthD (sf_arith X) (sm_delta m) i) (dl i)).
  { intros i Hi. rewrite ED. destruct i as [|[|[|i]]]; [apply float64_fin, DL; lia..|lia]. }
  assert (FN : forall i, (i < 3)%nat -> dl i = 0 \/ len <= 1000000000000000000000000 * Rabs (dl i)).
  { intros i Hi. destruct (DN i Hi) as [E|E]; [left; unfold dl; rewrite E, Rminus_eq_0; apply rnd53_id, generic_format_0|right].
    destruct (DL i Hi) as (_ & R & _). fold (dl i) in R. pose proof (Rabs_triang_inv (q i - p i) (dl i)) as T. rewrite (Rabs_minus_sym (q i - p i)) in T. unfold E53 in R. lra. }
  assert (FLl : float64 (sm_length m) len) by (rewrite EL; apply float64_fin; exact FL).
  assert (SB : straight_by X m dl len).
  { constructor; auto; [split; [auto|lra]|exists im; auto]. }
  assert (VB : forall i, (i < 3)%nat -> 0 < sh_v s i /\ 0 < sh_a s i /\ 0 < sh_d s i).
  { intros i Hi. destruct (S2 i Hi). pose proof (S3 i Hi). lra. }
  assert (FE : feed_is m fo f /\ (forall g, f = Some g -> sh_V0 s <= g <= sh_V1 s) /\ (f = None -> forall i, (i < 3)%nat -> 2 * sh_v s i <= sh_V1 s)).
  { destruct FF as (o & F1 & F2 & F3). destruct f as [f|].
    - destruct F3 as (g & G1 & G2 & G3). split; [|split; [intros ? E; injection E as <-; exact G3|discriminate]].
      exists o. split; auto. split; auto. exists g. split; auto. split; auto. split; [lra|]. assert (0 < g). { apply (Rmult_lt_reg_r o); lra. } split; auto.
      apply Rnot_lt_le. intro C. assert (1000000000 * / 1000 <= g * o) by (apply Rmult_le_compat; lra). lra.
    - destruct F3 as (F3 & F4). split; [exists o; auto|]. split; [discriminate|auto]. }
  destruct FE as (FE & FB & FN0). destruct UO as [U1 (U2 & U2') U3 (U4 & U4')].
  pose proof (al_j _ _ _ _ _ _ S1) as (_ & UJ). unfold usual in UJ.
  assert (V01 : sh_V0 s <= sh_V1 s). { destruct f as [f|]; [destruct (FB f eq_refl); lra|]. pose proof (FN0 eq_refl 0%nat ltac:(lia)). pose proof (S3 0%nat ltac:(lia)). lra. }
  assert (GE : gentle (sh_a s) (sh_d s) (sh_v s) (sh_j s) len f).
  { split.
    - exists (sh_V1 s). split; [destruct f as [f|]; [right; exists f; split; auto; apply FB; auto|left; auto]|].
      intros i Hi. destruct (S2 i Hi). split; (eapply Rle_trans; [exact J1|]; apply Rmult_le_compat_l; [lra|apply Rmult_le_compat; lra]).
    - exists (sh_V0 s). split; [lra|]. split; [auto|]. split; [intros g E; apply FB; auto|].
      assert (LL : len * len <= (1001/1000 * sh_L1 s) * (1001/1000 * sh_L1 s)) by (apply Rmult_le_compat; lra).
      assert (LJ : sh_j s * (len * len) <= sh_j s * ((1001/1000 * sh_L1 s) * (1001/1000 * sh_L1 s))) by (apply Rmult_le_compat_l; lra).
      replace (sh_j s * (1001 / 1000 * sh_L1 s * (1001 / 1000 * sh_L1 s))) with (1002001/1000000 * (sh_j s * (sh_L1 s * sh_L1 s))) in LJ by field.
      assert (0 < sh_V0 s * sh_V0 s * sh_V0 s) by (repeat apply Rmult_lt_0_compat; lra). lra. }
  destruct (limits_lemma X M _ _ _ _ m dl len fo f S1 SB FE GE) as (l & LJ & LL & KE & US & ST).
  exists (mkPath len p dl None), l. cbn [pa_arc pa_start pa_delta pa_len].
  (* the limits found *)
  assert (AG : forall x i, 0 <= x -> (i < 3)%nat -> along dl len x i <= x).
  { intros x i Hx Hi. unfold along. rewrite <- (Rmult_1_r x) at 2. apply Rmult_le_compat_l; auto. apply (Rmult_le_reg_r len); [lra|]. unfold Rdiv. rewrite Rmult_assoc, Rinv_l by lra. pose proof (LD i Hi). lra. }
  assert (AL2 : forall x, 0 <= x -> x <= 2 * along dl len x im).
  { intros x Hx. unfold along. replace (2 * (x * (Rabs (dl im) / len))) with (x * (2 * Rabs (dl im) / len)) by (field; lra). rewrite <- (Rmult_1_r x) at 1. apply Rmult_le_compat_l; auto.
    apply (Rmult_le_reg_r len); [lra|]. unfold Rdiv. rewrite Rmult_assoc, Rinv_l by lra. lra. }
  assert (POS : 0 < fl_a l /\ 0 < fl_d l /\ 0 < fl_vm l).
  { pose proof (sd_usual _ _ _ _ _ _ _ _ _ ST) as (Q1 & Q2 & Q3 & Q4 & Q5). unfold usual in *. lra. }
  assert (TP : 0 < fu_T u). { apply Rnot_le_lt. intro C. assert (0 <= sh_V0 s * (- fu_T u)) by (apply Rmult_le_pos; lra). lra. }
  destruct POS as (Pa & Pd & Pv). destruct KE as (K1 & K2). destruct US as ((ia & Hia & Ua) & (id & Hid & Ud) & Uv).
  destruct (K1 im Him) as (Ka & Kd & Kv). pose proof (AL2 (fl_a l) ltac:(lra)). pose proof (AL2 (fl_d l) ltac:(lra)). pose proof (AL2 (fl_vm l) ltac:(lra)).
  pose proof (AG (fl_a l) ia ltac:(lra) Hia). pose proof (AG (fl_d l) id ltac:(lra) Hid).
  destruct (S2 im Him) as (Sa & Sd). destruct (S2 ia Hia) as (Sa' & _). destruct (S2 id Hid) as (_ & Sd').
  assert (AB : 999/1000 * sh_a0 s <= fl_a l <= 201/100 * sh_a1 s) by lra. assert (ADB : 999/1000 * sh_a0 s <= fl_d l <= 201/100 * sh_a1 s) by lra.
  assert (VL : 999/1000 * sh_V0 s <= fl_vm l).
  { destruct Uv as [(i & Hi & C)|(g & E & C)]; [pose proof (AG (fl_vm l) i ltac:(lra) Hi); pose proof (S3 i Hi); lra|pose proof (FB g E); lra]. }
  assert (VU : fl_vm l <= 1001/1000 * sh_V1 s).
  { destruct f as [g|]; [pose proof (K2 g eq_refl); pose proof (FB g eq_refl); lra|pose proof (FN0 eq_refl im Him); lra]. }
  assert (TG : 0 < tick_gap (fu_W u) (fu_T u)) by (unfold tick_gap; lra).
  split; [|split; [reflexivity|split; [intros i Hi; split; [reflexivity|apply DL; auto]|split; [exact LN|split; [split; auto|split; [exists ia; auto|split; [exists id; auto|exact Uv]]]]]]].
  constructor; cbn [pa_arc pa_start pa_delta pa_len].
  - destruct LT as [-> | ->]; reflexivity.
  - auto.
  - exact FLl.
  - intros i Hi. rewrite ES. apply (AP i Hi).
  - intros i Hi. split; [apply FD; auto|]. split; [apply LD; auto|apply FN; auto].
  - exact ST.
  - intros i Hi. destruct (LR i Hi) as (_ & L1 & L2 & L3). destruct (U1 i Hi) as (_ & UK).
    assert (fu_k u i * len <= fu_k u i * (1001/1000 * distance p q)) by (apply Rmult_le_compat_l; lra).
    assert (0 <= fu_k u i * distance p q) by (apply Rmult_le_pos; lra). split; [|split]; lra.
  - assert (X1 : sh_V0 s * fu_T u <= 1000/999 * (fl_vm l * fu_T u)).
    { replace (1000 / 999 * (fl_vm l * fu_T u)) with ((1000/999 * fl_vm l) * fu_T u) by ring. apply Rmult_le_compat_r; lra. }
    split; [lra|].
    assert (IA : / fl_a l <= / (999/1000 * sh_a0 s)) by (apply Rinv_le_contravar; lra). assert (ID : / fl_d l <= / (999/1000 * sh_a0 s)) by (apply Rinv_le_contravar; lra).
    apply Rle_trans with (3 * (1001/1000 * sh_L1 s) * (/ (999/1000 * sh_a0 s) + / (999/1000 * sh_a0 s))).
    + apply Rmult_le_compat; try lra. pose proof (Rinv_0_lt_compat _ Pa). pose proof (Rinv_0_lt_compat _ Pd). lra.
    + apply (Rmult_le_reg_r (999/1000 * sh_a0 s)); [lra|]. replace (3 * (1001 / 1000 * sh_L1 s) * (/ (999 / 1000 * sh_a0 s) + / (999 / 1000 * sh_a0 s)) * (999 / 1000 * sh_a0 s)) with (6 * (1001/1000 * sh_L1 s)) by (field; lra). lra.
  - assert (fl_vm l * tick_gap (fu_W u) (fu_T u) <= 1001/1000 * sh_V1 s * tick_gap (fu_W u) (fu_T u)) by (apply Rmult_le_compat_r; lra).
    assert (0 <= sh_V1 s * tick_gap (fu_W u) (fu_T u)) by (apply Rmult_le_pos; lra). lra.
  - intros i Hi. destruct (U1 i Hi) as (_ & UK). eapply Rle_trans; [|exact (S8 i Hi)]. apply Rmult_le_compat_l; [lra|].
    replace (101 / 100 * (sh_V1 s * tick_gap (fu_W u) (fu_T u))) with (101/100 * sh_V1 s * tick_gap (fu_W u) (fu_T u)) by ring. apply Rmult_le_compat_r; lra.
  - intros i Hi. destruct (U1 i Hi) as (_ & UK). pose proof (sq_nonneg (last_gap (fu_W u) (fu_T u))) as GN.
    split; (eapply Rle_trans; [|exact (S9 i Hi)]; apply Rmult_le_compat_l; [lra|]; rewrite <- (Rmult_assoc (201/100)); apply Rmult_le_compat_r; [exact GN|lra]).
Qed.
End Leg.

(** *** A program. *)
Lemma last_head {A} (l : list A) : forall a b, last (a :: l) b = last l a.
Proof. induction l as [|x l IH]; intros a b; [reflexivity|]. change (last (a :: x :: l) b) with (last (x :: l) b). now rewrite !IH. Qed.
Section Program.
Variables (X : sf_funs) (M : machine sf) (u : funit) (s : shop) (fo : sf).
Hypothesis UO : funit_ok X M u.
Hypothesis SO : shop_ok X M u s.
Notation K := (g_f X).
Definition leg_planned (p q : nat -> R) (f : option R) (P : path) (l : flimits) : Prop :=
  pa_arc P = None /\ 0 < pa_len P /\ (forall i, (i < 3)%nat -> pa_start P i = p i /\ Rabs (pa_delta P i - (q i - p i)) <= / 1000000 /\ Rabs (fu_k u i * (pa_delta P i - (q i - p i))) <= / 1000) /\
  Rabs (pa_len P - distance p q) <= / 1000000 /\
  limits_kept (sh_a s) (sh_d s) (sh_v s) f (pa_delta P) (pa_len P) l /\ limits_used (sh_a s) (sh_d s) (sh_v s) f (pa_delta P) (pa_len P) l.
Fixpoint planned (p : nat -> R) (stops : list (nat -> R)) (fs : list (option R)) (qs : list fmotion) : Prop :=
  match stops, fs, qs with
  | [], [], [] => True
  | q :: stops', f :: fs', g :: qs' => leg_planned p q f (fq_P g) (fq_l g) /\ planned q stops' fs' qs'
  | _, _, _ => False
  end.
Lemma leg_read m xp xq p q rr r f : is_line_type (sm_type m) -> sm_arc0 m = 3%nat -> sm_arc1 m = 3%nat -> sm_start m = xp ->
  let d := fun i => nsub K (coord_at K xq i) (coord_at K xp i) in
  sm_delta m = map d [0; 1; 2]%nat ->
  sm_length m = nsqrt K (nadd K (nadd K (nadd K (sqd K (nmul K rr (nabs K (nofZ K 0)))) (sqd K (d 0%nat))) (sqd K (d 1%nat))) (sqd K (d 2%nat))) ->
  float64 rr r -> at64 X xp p -> at64 X xq q -> leg_fits u s p q -> feed_fits s fo m f ->
  exists P l, straight X M fo u m P l /\ leg_planned p q f P l.
Proof.
  intros LT A0 A1 ES d ED EL FR AP AQ LF FF.
  destruct (leg_straight X M u s fo UO SO m xp xq p q rr r f LT A0 A1 ES ED EL FR AP AQ LF FF) as (P & l & ST & PA & PS & PL & KE & US).
  exists P, l. split; auto. destruct LF as (LB & LR). destruct SO as [_ _ _ (_ & _ & _ & R4 & R5) _ _ _ _ _]. destruct UO as [U1 (_ & U2') _ _].
  split; auto. pose proof PL as PL'. apply Rabs_le_inv in PL'. unfold E53 in PL'. split; [lra|]. split; [|split; auto; unfold E53 in PL; lra].
  intros i Hi. destruct (PS i Hi) as (PS1 & PS2). pose proof (distance_ge p q i Hi) as G. destruct (U1 i Hi) as (_ & UK). destruct (LR i Hi) as (_ & _ & L2 & _).
  split; auto. unfold E53 in PS2. split; [lra|]. rewrite Rabs_mult, (Rabs_pos_eq (fu_k u i)) by lra.
  apply Rle_trans with (fu_k u i * (/ 9007199254740992 * distance p q)); [apply Rmult_le_compat_l; lra|]. lra.
Qed.
Lemma read_prog pi ls : forall c m c' m' outs p r stops fs, sized (g_st c) -> float64 (sm_radius m) r -> at64 X (s_cur (g_st c)) p ->
  g_run K pi c m ls = Ok (c', m', outs) -> straight_only outs -> stops_fit X u s fo p (passed_on outs) stops fs ->
  at64 X (s_cur (g_st c')) (last stops p) /\
  exists qs, map fq_m qs = map snd (passed_on outs) /\ Forall (fq_ok X M fo u) qs /\ planned p stops fs qs.
Proof.
  induction ls as [|l ls IH]; intros c m c' m' outs p r stops fs SZ FR AP H SL SF; cbn [GcodeModel.g_run] in H.
  - injection H as <- <- <-. cbn in SF. destruct stops, fs; try contradiction. split; [exact AP|]. exists []. repeat split; constructor.
  - unfold rbind in H. destruct (g_line K pi c m l) as [[c1 m1]|] eqn:E; [|discriminate]. cbn [fst snd] in H.
    destruct (GcodeModel.g_run K pi c1 m1 ls) as [[[c2 m2] outs2]|] eqn:E2; [|discriminate]. cbn [fst snd] in H. injection H as <- <- <-.
    destruct (sized_line _ _ _ _ _ _ _ SZ E) as (S1 & _). inversion SL as [|o os SL1 SL2]; subst. cbn [fst snd] in SL1.
    destruct (read_line K pi c m l c1 m1 SZ E) as [(N & A & B & C)|(A & B)].
    + assert (EF : passed_on ((c1, m1) :: outs2) = passed_on outs2). { unfold passed_on. cbn [filter fst]. destruct (g_res c1); try reflexivity. congruence. }
      rewrite EF in *. pose proof (eq_ind_r (fun z => float64 z r) FR C) as FR1. rewrite <- A in AP. apply (IH c1 m1 c2 m2 outs2 p r); auto.
    + destruct (SL1 A) as (LT & RS). destruct (B LT) as (B1 & B2 & B3 & B4 & B5). cbv zeta in B5. destruct B5 as (B5 & B6).
      assert (EF : passed_on ((c1, m1) :: outs2) = (c1, m1) :: passed_on outs2). { unfold passed_on. cbn [filter fst]. rewrite RS. reflexivity. }
      rewrite EF in *. cbn [stops_fit] in SF. destruct stops as [|q stops]; [contradiction|]. destruct fs as [|f fs]; [contradiction|]. cbn [fst snd] in SF. destruct SF as (AQ & LF & FF & SF).
      destruct (leg_read m1 _ _ p q _ r f LT B2 B3 B4 B5 B6 FR AP AQ LF FF) as (P & l0 & ST & LP).
      pose proof (eq_ind_r (fun z => float64 z r) FR B1) as FR1. destruct (IH c1 m1 c2 m2 outs2 q r stops fs S1 FR1 AQ E2 SL2 SF) as (I1 & qs & I2 & I3 & I4).
      split; [rewrite last_head; exact I1|].
      exists (mkFQ m1 P l0 :: qs). cbn [map fq_m snd]. split; [now rewrite I2|]. split; [constructor; [exact ST|exact I3]|]. cbn [planned fq_P fq_l]. auto.
Qed.

Lemma path_ends P p q f l i : leg_planned p q f P l -> (i < 3)%nat -> path_pos P i 0 = p i /\ Rabs (fu_k u i * (path_pos P i (pa_len P) - q i)) <= / 1000.
Proof.
  intros (A & L & S1 & _) Hi. destruct (S1 i Hi) as (E & _ & B). unfold path_pos. rewrite A. unfold linear_pos. rewrite E. split; [unfold Rdiv; ring|].
  replace (p i + pa_delta P i * (pa_len P / pa_len P) - q i) with (pa_delta P i - (q i - p i)) by (field; lra). exact B.
Qed.
Lemma planned_joined qs : forall p p' stops fs, planned p stops fs qs -> (forall i, (i < 3)%nat -> Rabs (fu_k u i * (p' i - p i)) <= / 1000) ->
  joined (fu_k u) p' (map fq_P qs) /\ forall i, (i < 3)%nat -> Rabs (fu_k u i * (end_of p' (map fq_P qs) i - last stops p i)) <= / 1000.
Proof.
  induction qs as [|g qs IH]; intros p p' stops fs H C; cbn [planned] in H; destruct stops as [|q stops], fs as [|f fs]; try contradiction.
  - cbn. auto.
  - destruct H as (LP & H). cbn [map joined end_of]. rewrite last_head.
    destruct (IH q (fun i => path_pos (fq_P g) i (pa_len (fq_P g))) stops fs H) as (J & E). { intros i Hi. apply (path_ends _ _ _ _ _ _ LP Hi). }
    split; [split; [|exact J]|exact E]. intros i Hi. destruct (path_ends _ _ _ _ _ _ LP Hi) as (-> & _). rewrite <- Rabs_Ropp. replace (- (fu_k u i * (p i - p' i))) with (fu_k u i * (p' i - p i)) by ring. apply C; auto.
Qed.
Lemma planned_done qs : forall p stops fs legs, planned p stops fs qs -> Forall2 (fun g q => executes u g (fq_P q) (fq_l q)) legs qs -> legs_done u s p stops fs legs /\ map lg_path legs = map fq_P qs.
Proof.
  induction qs as [|g qs IH]; intros p stops fs legs H F; inversion F; subst; cbn [planned] in H; destruct stops as [|q stops], fs as [|f fs]; try contradiction.
  - cbn. auto.
  - destruct H as ((A & L & S1 & S2 & S3 & S4) & H). destruct (IH q stops fs l H) as (I1 & I2); [assumption|]. cbn [legs_done map].
    match goal with E : executes u ?y _ _ |- _ => pose proof E as EX; destruct E as (EP & _) end. split; [|now rewrite EP, I2].
    split; [|exact I1]. unfold leg_done. rewrite EP. split; auto. split; [intros i Hi; destruct (S1 i Hi) as (? & ? & _); auto|]. split; auto. exists (fq_l g). auto.
Qed.
Lemma planned_length qs : forall p stops fs, planned p stops fs qs -> length qs = length stops.
Proof. induction qs as [|g qs IH]; intros p stops fs H; cbn [planned] in H; destruct stops as [|q stops], fs as [|f fs]; try contradiction; [reflexivity|]. cbn. f_equal. eapply IH. apply H. Qed.
Lemma program_lemma w : float32 w (fu_W u) -> forall pi c m ls c' m' outs r x0 stops fs k, sized (g_st c) -> float64 (sm_radius m) r -> at64 X (s_cur (g_st c)) x0 ->
  g_run K pi c m ls = Ok (c', m', outs) -> straight_only outs -> stops_fit X u s fo x0 (passed_on outs) stops fs -> (1 <= length stops <= 32)%nat ->
  idle X k w fo -> (forall i, (i < 3)%nat -> Rabs (fu_k u i * x0 i - counted k i) <= 54/100) ->
  at64 X (s_cur (g_st c')) (last stops x0) /\
  exists k0 legs (n : nat) kn,
    c_run (sf_arith X) M k (map (fun o => OAppend (snd o)) (passed_on outs) ++ [OStart]) = Ok (k0, []) /\
    legs_done u s x0 stops fs legs /\
    (forall j, (j < n)%nat -> exists kj, ticks_run (sf_arith X) M j k0 = Ok kj /\ under_way u x0 legs kj j) /\
    ticks_run (sf_arith X) M n k0 = Ok kn /\ all_done u x0 legs kn n /\ idle X kn w fo /\
    forall i z, (i < 3)%nat -> Rabs (fu_k u i * last stops x0 i - IZR z) < 999/1000 - reach (fu_B u) (fu_H u) -> nth i (c_pos kn) 0%Z = z.
Proof.
  intros FW pi c m ls c' m' outs r x0 stops fs k SZ FR AP GR SL SF LN ID CL.
  destruct (read_prog pi ls c m c' m' outs x0 r stops fs SZ FR AP GR SL SF) as (AE & qs & Q1 & Q2 & Q3). split; [exact AE|].
  pose proof (planned_length _ _ _ _ Q3) as QL.
  destruct (planned_joined qs x0 x0 stops fs Q3) as (JN & JE). { intros i Hi. rewrite Rminus_eq_0, Rmult_0_r, Rabs_R0. lra. }
  destruct (job_lemma X M fo u UO w FW k x0 qs ID Q2) as (k0 & legs & n & kn & R1 & R2 & R3 & R4 & R5 & R6); auto.
  { intros ->. cbn in QL. lia. } { lia. }
  destruct (planned_done qs x0 stops fs legs Q3 R2) as (LD & EP).
  exists k0, legs, n, kn. split. { rewrite <- R1. f_equal. f_equal. rewrite <- (map_map snd OAppend), <- Q1, map_map. reflexivity. }
  do 5 (split; [assumption|]). intros i z Hi HZ. apply (landing_lemma u x0 legs kn n i z R5 Hi). rewrite EP.
  pose proof (JE i Hi) as J. pose proof (Rabs_triang (fu_k u i * (end_of x0 (map fq_P qs) i - last stops x0 i)) (fu_k u i * last stops x0 i - IZR z)) as T.
  replace (fu_k u i * (end_of x0 (map fq_P qs) i - last stops x0 i) + (fu_k u i * last stops x0 i - IZR z)) with (fu_k u i * end_of x0 (map fq_P qs) i - IZR z) in T by ring. lra.
Qed.
End Program.
