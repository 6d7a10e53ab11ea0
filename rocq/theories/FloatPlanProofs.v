(** binary32: the speed and the ramps chosen for a motion from standstill to standstill. *)
Require Import List Arith NArith ZArith Bool Reals Lra Lia.
From Coq Require Import Floats.SpecFloat.
From Flocq Require Import Core.
From Verif Require Import Base Num NumR NumSF MotionModel CtrlModel CtrlSpec ProfileSpec ProfileProofs PlanProofs FloatSpec FloatProofs FloatClockProofs FloatTrackProofs FloatErrProofs FloatRampProofs FloatCalcProofs FloatPhaseProofs.
Open Scope R_scope.

Lemma r_L_avg V T j r a d o v0 v1 : ideal V T j r -> r_good o v0 v1 a d j r -> r_L r = (v0 + v1) * T / 2.
Proof. intros I G. unfold r_L. rewrite (id_T _ _ _ _ I). destruct G as (-> & -> & _). field. Qed.

Section Plan.
Variable X : sf_funs.
Notation K := (aF (sf_arith X)).

Section Choice.
Variables (a d j L cap : R) (p : profile sf) (lenf minS fo capf : sf).
Hypothesis Ha : plain a. Hypothesis Hd : plain d. Hypothesis Hj : plain j. Hypothesis HL : plain L. Hypothesis Hc : plain cap.
Hypothesis Ja : j * cap <= 1000 * (a * a). Hypothesis Jd : j * cap <= 1000 * (d * d).
Hypothesis HX : j * L * L <= 1099511627776 * (cap * cap * cap).
Hypothesis Fa : fin32 (p_aMax p) a. Hypothesis Fd : fin32 (p_dMax p) (- d). Hypothesis Fj : fin32 (p_jMax p) j.
Hypothesis FL : fin32 lenf L. Hypothesis Fc : fin32 capf cap.
Hypothesis EC : capf = if nltb K (p_vMax p) (nmul K (p_vFeed p) fo) then p_vMax p else nmul K (p_vFeed p) fo.
Hypothesis E0 : ad_vStart (p_left p) = nofZ K 0. Hypothesis E1 : ad_vEnd (p_right p) = nofZ K 0.
Hypothesis D0 : p_doneLength p = nofZ K 0. Hypothesis D1 : p_doneDuration p = nofZ K 0.

Let PE : 0 < eps. Proof. unfold eps. lra. Qed.
Let r := 2 * L * a * d / (a + d).
Let Z : fin32 (nofZ K 0) 0. Proof. apply (fin_lit X 0); lia. Qed.
Let PLad : / 4398046511104 <= L * a * d <= 1152921504606846976.
Proof.
  unfold plain in *. assert (A1 : / 268435456 <= L * a <= 1099511627776).
  { split; [replace (/ 268435456) with (/ 16384 * / 16384) by lra|replace 1099511627776 with (1048576 * 1048576) by lra]; apply Rmult_le_compat; lra. }
  split; [replace (/ 4398046511104) with (/ 268435456 * / 16384) by lra|replace 1152921504606846976 with (1099511627776 * 1048576) by lra]; apply Rmult_le_compat; lra.
Qed.
Let Er : r * (a + d) = 2 * L * a * d. Proof. unfold r, plain in *. field. lra. Qed.
(** the exact square lies between [L] times the lower limit and twice that *)
Let Rr m : plain m -> m <= a -> m <= d -> L * m <= r.
Proof.
  intros Hm Ma Md. unfold plain in *. apply Rmult_le_reg_r with (a + d); [lra|]. rewrite Er.
  assert (B1 : m * a <= d * a) by (apply Rmult_le_compat_r; lra). assert (B2 : m * d <= a * d) by (apply Rmult_le_compat_r; lra).
  assert (B3 : m * (a + d) <= 2 * (a * d)) by lra.
  apply Rle_trans with (L * (2 * (a * d))); [|lra]. rewrite Rmult_assoc. apply Rmult_le_compat_l; lra.
Qed.
Let Rup : r <= 2 * L * a.
Proof.
  unfold plain in *. apply Rmult_le_reg_r with (a + d); [lra|]. rewrite Er. rewrite (Rmult_plus_distr_l (2 * L * a)).
  assert (0 < 2 * L * a * a) by (repeat apply Rmult_lt_0_compat; lra). lra.
Qed.
Let Rlow : / 268435456 <= r.
Proof.
  unfold plain in *. destruct (Rle_dec a d).
  - apply Rle_trans with (L * a); [|apply Rr; unfold plain; lra]. replace (/ 268435456) with (/ 16384 * / 16384) by lra. apply Rmult_le_compat; lra.
  - apply Rle_trans with (L * d); [|apply Rr; unfold plain; lra]. replace (/ 268435456) with (/ 16384 * / 16384) by lra. apply Rmult_le_compat; lra.
Qed.
Let Rhigh : r <= 2199023255552.
Proof.
  eapply Rle_trans; [apply Rup|]. unfold plain in *. assert (L * a <= 1048576 * 1048576) by (apply Rmult_le_compat; lra). lra.
Qed.

Let Flen : fin32 (nsub K lenf (p_doneLength p)) L. Proof. rewrite D0. now apply sub_0_r. Qed.

Let prod : fap (2 * L * a * d) (15/4) (nmul K (nmul K (nmul K (nofZ K 2) (nsub K lenf (p_doneLength p))) (p_aMax p)) (p_dMax p)) (2 * L * a * - d).
Proof.
  unfold plain in *.
  assert (F2 : fin32 (nofZ K 2) 2) by (apply (fin_lit X 2); lia).
  assert (LA : / 268435456 <= L * a <= 1099511627776).
  { split; [replace (/ 268435456) with (/ 16384 * / 16384) by lra|replace 1099511627776 with (1048576 * 1048576) by lra]; apply Rmult_le_compat; lra. }
  assert (A1 : fap (2 * L) (10/8) (nmul K (nofZ K 2) (nsub K lenf (p_doneLength p))) (2 * L)).
  { eapply fap_weak; [apply (fap_mul X 2 L 0 0)|]; try lra.
    - apply fap_exact; auto; lra.
    - apply fap_exact; auto; lra.
    - rewrite Rabs_pos_eq; lra.
    - rewrite Rabs_pos_eq; lra.
    - unfold scl, lowest, highest. lra. }
  assert (A2 : fap (2 * L * a) (20/8) (nmul K (nmul K (nofZ K 2) (nsub K lenf (p_doneLength p))) (p_aMax p)) (2 * L * a)).
  { eapply fap_weak; [apply (fap_mul X (2 * L) a (10/8) 0)|]; try lra; auto.
    - apply fap_exact; auto; lra.
    - rewrite Rabs_pos_eq; lra.
    - rewrite Rabs_pos_eq; lra.
    - unfold scl, lowest, highest. lra.  }
  eapply fap_weak; [apply (fap_mul X (2 * L * a) d (20/8) 0)|]; try lra; auto.
  - apply fap_exact; auto; lra.
  - rewrite Rabs_pos_eq; lra.
  - rewrite Rabs_Ropp, Rabs_pos_eq; lra.
  - unfold scl, lowest, highest. lra. 
Qed.

(** *** The speed that just fits *)
Lemma vTri_near : exists v, fin32 (p_vTri K p lenf maximizeSpeed) v /\ / 32768 <= v /\ Rabs (v * v - r) <= 14 * (eps * r).
Proof.
  unfold p_vTri, vTri_static. rewrite E0, E1.
  assert (M0 : forall x y u, fin32 x 0 -> fin32 y u -> fin32 (nmul K x y) 0).
  { intros x y u Fx Fy. pose proof (fin_mul 24 128 prec24 max24 x y 0 u Fx Fy) as H. rewrite Rmult_0_l, rnd_0 in H. apply H. apply small_huge. rewrite Rabs_R0. unfold highest. lra. }
  assert (S0 : forall x y, fin32 x 0 -> fin32 y 0 -> fin32 (nsub K x y) 0).
  { intros x y Fx Fy. pose proof (fin_sub 24 128 prec24 max24 x y 0 0 Fx Fy) as H. rewrite Rminus_0_r, rnd_0 in H. apply H. apply small_huge. rewrite Rabs_R0. unfold highest. lra. }
  set (z := nsub K (nmul K (nmul K (nofZ K 0) (nofZ K 0)) (p_aMax p)) (nmul K (nmul K (nofZ K 0) (nofZ K 0)) (p_dMax p))).
  assert (Fz : fin32 z 0) by (unfold z; eauto).
  set (N := 2 * L * a * d). assert (HN : / 2199023255552 <= N <= 2305843009213693952) by (unfold N; lra).
  assert (FN : fap N (39/8) (nsub K z (nmul K (nmul K (nmul K (nofZ K 2) (nsub K lenf (p_doneLength p))) (p_aMax p)) (p_dMax p))) N).
  { apply (fap_eq _ _ _ (0 - 2 * L * a * - d)); [|unfold N; ring]. eapply fap_weak; [apply (fap_sub X N 0 (15/4))|].
    - apply fap_exact; auto. lra.
    - exact prod.
    - replace (0 - 2 * L * a * - d) with N by (unfold N; ring). rewrite Rabs_pos_eq; lra.
    - unfold scl, lowest, highest. lra.
    - lra.
    - lra. }
  unfold plain in *.
  destruct (rnd_step (a + d) (a - - d) (a + d) 0) as (Y1 & Y2).
  { unfold scl, lowest, highest. lra. } { rewrite Rabs_pos_eq; lra. } { apply abs_le. lra. } { lra. }
  set (y := rnd (a - - d)) in *.
  assert (Fy : fin32 (nsub K (p_aMax p) (p_dMax p)) y) by (apply (fin_sub _ _ prec24 max24); auto; apply small_huge; auto).
  pose proof (Rabs_def3 _ _ Y1) as Y3. unfold eps in Y3 at 1 2.
  assert (Py : 0 < y) by lra.
  assert (RY : Rabs (N / y - r) <= 114/100 * (eps * r)).
  { assert (EN : N / y = r * ((a + d) / y)) by (unfold N, r; field; lra).
    assert (B : Rabs ((a + d) / y - 1) <= 114/100 * eps).
    { replace ((a + d) / y - 1) with (- (y - (a + d)) / y) by (field; lra). unfold Rdiv. rewrite Rabs_mult, Rabs_Ropp, (Rabs_pos_eq (/ y)) by (apply Rlt_le, Rinv_0_lt_compat; auto).
      apply Rmult_le_reg_r with y; auto. rewrite Rmult_assoc, Rinv_l, Rmult_1_r by lra. eapply Rle_trans; [exact Y1|]. unfold eps. lra. }
    rewrite EN. replace (r * ((a + d) / y) - r) with (r * ((a + d) / y - 1)) by ring. rewrite Rabs_mult, (Rabs_pos_eq r) by lra.
    replace (114/100 * (eps * r)) with (r * (114/100 * eps)) by ring. apply Rmult_le_compat_l; lra. }
  assert (RY' := Rabs_def3 _ _ RY).
  assert (Er' : 0 < eps * r <= / 10000000 * r) by (unfold eps; lra).
  assert (NY : 0 < N / y) by (apply Rdiv_lt_0_compat; lra).
  destruct (fap_div X N (39/8) _ _ N y FN Fy ltac:(lra)) as (x & Fx & Ex).
  { rewrite Rabs_pos_eq; lra. } { rewrite (Rabs_pos_eq y) by lra. unfold scl, lowest, highest. lra. } { lra. }
  rewrite (Rabs_pos_eq y) in Ex by lra. apply Rabs_def3 in Ex.
  assert (EY : eps * (N / y) <= 11/10 * (eps * r)).
  { replace (11/10 * (eps * r)) with (eps * (11/10 * r)) by ring. apply Rmult_le_compat_l; lra. }
  assert (EX : Rabs (x - r) <= 8 * (eps * r)) by (apply abs_le; lra). apply Rabs_def3 in EX.
  assert (Px : / 536870912 <= x <= 4398046511104) by lra.
  assert (SQ : / 65536 <= sqrt x <= 2097152).
  { split; [rewrite <- (sqrt_square (/ 65536)) by lra|rewrite <- (sqrt_square 2097152) by lra]; apply sqrt_le_1_alt; lra. }
  pose proof (sqrt_sqrt x ltac:(lra)) as SS. pose proof (rnd_err (sqrt x)) as RE. set (v := rnd (sqrt x)) in *.
  rewrite (Rabs_pos_eq (sqrt x)) in RE by lra.
  assert (RE' : Rabs (v - sqrt x) <= 101/100 * (eps * sqrt x)) by (unfold eta, eps in *; lra). clear RE.
  exists v. split.
  { apply (fin_sqrt _ _ prec24 max24); auto; try lra. }
  apply Rabs_def3 in RE'.
  assert (V2 : Rabs (v * v - x) <= 204/100 * (eps * x)).
  { rewrite <- SS. replace (v * v - sqrt x * sqrt x) with ((v - sqrt x) * (v + sqrt x)) by ring. rewrite Rabs_mult.
    replace (204/100 * (eps * (sqrt x * sqrt x))) with ((101/100 * (eps * sqrt x)) * (204/101 * sqrt x)) by field.
    apply Rmult_le_compat; try apply Rabs_pos; [apply abs_le; lra|]. apply abs_le. unfold eps in *. lra. }
  apply Rabs_def3 in V2.
  assert (EXr : eps * x <= 11/10 * (eps * r)). { replace (11/10 * (eps * r)) with (eps * (11/10 * r)) by ring. apply Rmult_le_compat_l; lra. }
  split; [|apply abs_le; lra].
  apply Rnot_lt_le. intro C. assert (v * v <= / 32768 * / 32768).
  { apply Rmult_le_compat; unfold eps in *; lra. } unfold eps in *. lra.
Qed.

Lemma vMin_zero : p_vTri K p lenf minimizeSpeed = nofZ K 0.
Proof.
  unfold p_vTri, vTri_static. rewrite E0, E1.
  assert (M0 : forall x y u, fin32 x 0 -> fin32 y u -> fin32 (nmul K x y) 0).
  { intros x y u Fx Fy. pose proof (fin_mul 24 128 prec24 max24 x y 0 u Fx Fy) as H. rewrite Rmult_0_l, rnd_0 in H. apply H. apply small_huge. rewrite Rabs_R0. unfold highest. lra. }
  set (z1 := nmul K (nmul K (nofZ K 0) (nofZ K 0)) (p_dMax p)). assert (F1 : fin32 z1 0) by (unfold z1; eauto).
  set (z2 := nmul K (nmul K (nofZ K 0) (nofZ K 0)) (p_aMax p)). assert (F2 : fin32 z2 0) by (unfold z2; eauto).
  set (N := 2 * L * a * d). assert (HN : / 2199023255552 <= N <= 2305843009213693952) by (unfold N; lra).
  assert (FN : fap N (39/8) (nsub K (nmul K (nmul K (nmul K (nofZ K 2) (nsub K lenf (p_doneLength p))) (p_aMax p)) (p_dMax p)) z1) (- N)).
  { apply (fap_eq _ _ _ (2 * L * a * - d - 0)); [|unfold N; ring]. eapply fap_weak; [apply (fap_sub X N (15/4) 0)|].
    - exact prod.
    - apply fap_exact; auto. lra.
    - replace (2 * L * a * - d - 0) with (- N) by (unfold N; ring). rewrite Rabs_Ropp, Rabs_pos_eq; lra.
    - unfold scl, lowest, highest. lra.
    - lra.
    - lra. }
  assert (FM : fap N 6 (nadd K (nsub K (nmul K (nmul K (nmul K (nofZ K 2) (nsub K lenf (p_doneLength p))) (p_aMax p)) (p_dMax p)) z1) z2) (- N)).
  { apply (fap_eq _ _ _ (- N + 0)); [|ring]. eapply fap_weak; [apply (fap_add X N (39/8) 0)|]; auto.
    - apply fap_exact; auto. lra.
    - rewrite Rplus_0_r, Rabs_Ropp, Rabs_pos_eq; lra.
    - unfold scl, lowest, highest. lra.
    - lra.
    - lra. }
  destruct FM as (x & Fx & Ex). apply Rabs_def3 in Ex. unfold eps in Ex.
  rewrite (K_leb X _ _ _ _ Z Fx). replace (Raux.Rle_bool 0 x) with false; auto. symmetry. apply Raux.Rle_bool_false. lra.
Qed.

Lemma plan_choice : exists V Vf o, p_plan K p lenf minS fo maximizeSpeed = (Vf, o) /\ fin32 Vf V /\ / 32768 <= V <= cap /\
  V * V / (2 * a) + V * V / (2 * d) <= L + 15 * (eps * L) /\ j * L * L <= 1099511627776 * (V * V * V) /\
  (V = cap \/ r - 14 * (eps * r) <= V * V).
Proof.
  destruct vTri_near as (v & Fv & Pv & Ev). apply Rabs_def3 in Ev. unfold plain in *.
  assert (Er' : 0 < eps * r <= / 10000000 * r) by (unfold eps; lra).
  assert (SUM : forall V, 0 <= V <= v -> V * V / (2 * a) + V * V / (2 * d) <= L + 15 * (eps * L)).
  { intros V HV. assert (V * V <= v * v) by (apply Rmult_le_compat; lra).
    replace (V * V / (2 * a) + V * V / (2 * d)) with (V * V * (L / r)) by (unfold r; field; repeat split; nra).
    assert (0 < L / r) by (apply Rdiv_lt_0_compat; lra).
    apply Rle_trans with ((r + 15 * (eps * r)) * (L / r)); [apply Rmult_le_compat_r; lra|].
    apply Req_le. field. lra. }
  unfold p_plan. rewrite vMin_zero, <- EC. rewrite (K_ltb X _ _ _ _ Fv Fc). destruct (Raux.Rlt_bool v cap) eqn:B.
  - apply ltb_lt in B. exists v, (p_vTri K p lenf maximizeSpeed), firstOrder. rewrite (K_ltb X _ _ _ _ Fv Z).
    rewrite Raux.Rlt_bool_false by lra. repeat (split; [auto; lra|]).
    split; [apply SUM; lra|].
    assert (G : forall m, / 16384 <= m <= 1048576 -> m <= a -> m <= d -> j * cap <= 1000 * (m * m) -> j * L * L <= 1099511627776 * (v * v * v)).
    { intros m Hm Ma Md HJ. pose proof (Rr m Hm Ma Md) as B1.
      assert (B2 : 0 < L * m <= 1001/1000 * (v * v)) by (split; [apply Rmult_lt_0_compat; lra|lra]).
      assert (B3 : j * v <= 1000 * (m * m)) by (eapply Rle_trans; [|exact HJ]; apply Rmult_le_compat_l; lra).
      assert (B4 : (L * m) * (L * m) <= 1001/1000 * (v * v) * (1001/1000 * (v * v))) by (apply Rmult_le_compat; lra).
      assert (Pm : 0 < m * m) by (apply Rmult_lt_0_compat; lra).
      assert (Pj : 0 < j * v) by (apply Rmult_lt_0_compat; lra).
      assert (B5 : (j * v) * ((L * m) * (L * m)) <= 1000 * (m * m) * (1001/1000 * (v * v) * (1001/1000 * (v * v)))).
      { apply Rmult_le_compat; try lra. apply Rlt_le, Rmult_lt_0_compat; lra. }
      apply Rmult_le_reg_r with (v * (m * m)); [apply Rmult_lt_0_compat; lra|].
      replace (j * L * L * (v * (m * m))) with ((j * v) * ((L * m) * (L * m))) by ring. eapply Rle_trans; [exact B5|].
      replace (1000 * (m * m) * (1001/1000 * (v * v) * (1001/1000 * (v * v)))) with (1002001/1000 * (v * v * v * (v * (m * m)))) by field.
      rewrite (Rmult_assoc 1099511627776). assert (0 <= v * v * v * (v * (m * m))) by (repeat apply Rmult_le_pos; lra). lra. }
    split; [destruct (Rle_dec a d); [apply (G a)|apply (G d)]; lra|]. right. lra.
  - apply ltb_ge in B. exists cap, capf, (if nltb K lenf minS then firstOrder else secondOrder). rewrite (K_ltb X _ _ _ _ Fc Z).
    rewrite Raux.Rlt_bool_false by lra. split; auto. split; auto. split; [lra|]. split; [apply SUM; lra|auto].
Qed.

(** *** The ramps *)
Section Ramps.
Variables (V : R) (Vf : sf) (p' : profile sf).
Hypothesis FV : fin32 Vf V. Hypothesis HV : / 32768 <= V <= cap.
Hypothesis B0 : ad_vStart (p_left p') = nofZ K 0. Hypothesis B1 : ad_vEnd (p_right p') = nofZ K 0.
Hypothesis Ba : p_aMax p' = p_aMax p. Hypothesis Bd : p_dMax p' = p_dMax p. Hypothesis Bj : p_jMax p' = p_jMax p.
Let q o := p_ramps K p' Vf o.

Let HV' : / 65536 <= V <= 2097152. Proof. unfold plain in *. lra. Qed.
Let Jle : j * V <= j * cap. Proof. unfold plain in *. apply Rmult_le_compat_l; lra. Qed.
Let JA : j * V <= 1000 * (a * a). Proof. lra. Qed.
Let JD : j * V <= 1000 * (d * d). Proof. lra. Qed.

Let Fa' : fin32 (p_aMax p') a. Proof. now rewrite Ba. Qed.
Let Fd' : fin32 (p_dMax p') (- d). Proof. now rewrite Bd. Qed.
Let Fj' : fin32 (p_jMax p') j. Proof. now rewrite Bj. Qed.

Lemma ramps_first : exists r1 r3, ideal V (V / a) j r1 /\ ideal V (V / d) j r3 /\ close X V (V / a) j r1 (p_left (q firstOrder)) /\ close X V (V / d) j r3 (p_right (q firstOrder)) /\
  r_good firstOrder 0 V a (- d) j r1 /\ r_good firstOrder V 0 a (- d) j r3.
Proof.
  unfold plain in *.
  destruct (first_acc X V a j HV' Ha JA (ad_setvEnd (ad_setMax (p_left p') (p_aMax p') (p_dMax p') (p_jMax p')) Vf) (- d) B0 FV Fa' Fj' ltac:(lra)) as (r1 & A1 & A2 & A3).
  destruct (first_dec X V d j HV' Hd JD (ad_setvStart (ad_setMax (p_right p') (p_aMax p') (p_dMax p') (p_jMax p')) Vf) a B1 FV Fd' Fj' ltac:(lra)) as (r3 & A4 & A5 & A6).
  exists r1, r3. auto 10.
Qed.
Lemma ramps_second : exists T1 T3 r1 r3, / 68719476736 <= T1 <= 268435456 /\ / 68719476736 <= T3 <= 268435456 /\ ideal V T1 j r1 /\ ideal V T3 j r3 /\ close X V T1 j r1 (p_left (q secondOrder)) /\ close X V T3 j r3 (p_right (q secondOrder)) /\
  r_good secondOrder 0 V a (- d) j r1 /\ r_good secondOrder V 0 a (- d) j r3.
Proof.
  unfold plain in *. pose proof (second_T V a j HV' Ha Hj JA) as T1. pose proof (second_T V d j HV' Hd Hj JD) as T3.
  destruct (second_acc X V a j HV' Ha Hj JA (ad_setvEnd (ad_setMax (p_left p') (p_aMax p') (p_dMax p') (p_jMax p')) Vf) (- d) B0 FV Fa' Fj' ltac:(lra)) as (r1 & A1 & A2 & A3).
  destruct (second_dec X V d j HV' Hd Hj JD (ad_setvStart (ad_setMax (p_right p') (p_aMax p') (p_dMax p') (p_jMax p')) Vf) a B1 FV Fd' Fj' ltac:(lra)) as (r3 & A4 & A5 & A6).
  match type of A1 with ideal _ ?t _ _ => exists t end. match type of A4 with ideal _ ?t _ _ => exists t end.
  exists r1, r3. split; [lra|]. split; [lra|]. auto 10.
Qed.
End Ramps.

Let good q := exists T len s v acc Tf,
  plan_spec 0 0 a (- d) cap 0 0 T len s v acc /\ Rabs (len - L) <= 24 * (eps * L) /\
  fin32 (p_duration q) Tf /\ Rabs (Tf - T) <= 80 * (eps * T) /\
  (forall tf t, fin32 tf t -> 0 <= t <= Tf -> fap L 256 (p_s K q tf) (s (Rmin t T))) /\
  fap L 442 (p_s K q (p_duration q)) L /\ p_tStop q = ninf K /\
  exists V, 0 < V <= cap /\ (V = cap \/ r - 14 * (eps * r) <= V * V) /\ T * V <= 2 * len.
Let whole p2 Vf := mkP (p_doneLength p2) (p_doneDuration p2) (p_left p2)
      (mkCR Vf (nsub K (nsub K lenf (p_doneLength p2)) (nadd K (ad_length (p_left p2)) (ad_length (p_right p2))))
        (ndiv K (nsub K (nsub K lenf (p_doneLength p2)) (nadd K (ad_length (p_left p2)) (ad_length (p_right p2)))) Vf)) (p_right p2)
      (p_vFeed p2) (p_vMax p2) (p_aMax p2) (p_dMax p2) (p_jMax p2)
      (nadd K (nadd K (nadd K (p_doneDuration p2) (ad_duration (p_left p2))) (ndiv K (nsub K (nsub K lenf (p_doneLength p2)) (nadd K (ad_length (p_left p2)) (ad_length (p_right p2)))) Vf)) (ad_duration (p_right p2)))
      (if neqb K Vf (nofZ K 0) then nadd K (p_doneDuration p2) (ad_duration (p_left p2)) else ninf K).

Theorem optimize_near : exists T len s v acc Tf,
  plan_spec 0 0 a (- d) cap 0 0 T len s v acc /\ Rabs (len - L) <= 24 * (eps * L) /\
  fin32 (p_duration (p_optimize K p lenf minS fo maximizeSpeed)) Tf /\ Rabs (Tf - T) <= 80 * (eps * T) /\
  (forall tf t, fin32 tf t -> 0 <= t <= Tf -> fap L 256 (p_s K (p_optimize K p lenf minS fo maximizeSpeed) tf) (s (Rmin t T))) /\
  fap L 442 (p_s K (p_optimize K p lenf minS fo maximizeSpeed) (p_duration (p_optimize K p lenf minS fo maximizeSpeed))) L /\
  p_tStop (p_optimize K p lenf minS fo maximizeSpeed) = ninf K /\
  exists V, 0 < V <= cap /\ (V = cap \/ r - 14 * (eps * r) <= V * V) /\ T * V <= 2 * len.
Proof.
  destruct plan_choice as (V & Vf & o & PL & FV & HV & SUM & HX' & HF). unfold p_optimize. rewrite PL. cbv zeta.
  assert (HV' : / 65536 <= V <= 2097152) by (unfold plain in *; lra).
  assert (G : forall p2 o T1 T3 r1 r3, p_doneLength p2 = nofZ K 0 -> p_doneDuration p2 = nofZ K 0 -> / 68719476736 <= T1 -> / 68719476736 <= T3 ->
    ideal V T1 j r1 -> ideal V T3 j r3 -> close X V T1 j r1 (p_left p2) -> close X V T3 j r3 (p_right p2) ->
    r_good o 0 V a (- d) j r1 -> r_good o V 0 a (- d) j r3 ->
    V * T1 / 2 + V * T3 / 2 <= L + 15 * (eps * L) \/ (nltb K (nsub K lenf (p_doneLength p2)) (nadd K (ad_length (p_left p2)) (ad_length (p_right p2))) = false /\ V * T1 / 2 + V * T3 / 2 <= 2 * L) ->
    good (whole p2 Vf)).
  { intros p2 o' T1 T3 r1 r3 Z1 Z2 HT1 HT3 I1 I3 C1 C3 G1 G3 HS. remember (whole p2 Vf) as q eqn:Eq. unfold whole in Eq. unfold good.
    assert (Q1 : p_doneLength q = nofZ K 0) by (rewrite Eq; auto). assert (Q2 : p_doneDuration q = nofZ K 0) by (rewrite Eq; auto).
    assert (QL : p_left q = p_left p2) by (rewrite Eq; auto). assert (QR : p_right q = p_right p2) by (rewrite Eq; auto).
    unfold plain in *.
    assert (ST : p_tStop q = ninf K).
    { rewrite Eq. cbn [p_tStop]. change (neqb K Vf (nofZ K 0)) with (SFeqb Vf (nofZ K 0)). rewrite (fin_eqb _ _ _ _ _ _ FV Z), Raux.Req_bool_false by lra. reflexivity. }
    destruct (phases_plan X V L T1 T3 j a (- d) o' r1 r3 q Vf lenf) with (vm := cap) as (T & len & s & v & acc & Tf & R1 & R2 & R3 & R4 & R5 & R6 & R7); try rewrite QL; try rewrite QR; auto; try lra.
    - rewrite Eq. cbn. now rewrite Z1.
    - rewrite Eq. cbn. now rewrite Z1, Z2.
    - now rewrite <- Z1.
    - exists T, len, s, v, acc, Tf. do 7 (split; [assumption|]). exists V. split; [lra|]. auto. }
  set (p1 := p_ramps K p Vf o).
  assert (FST : forall p', ad_vStart (p_left p') = nofZ K 0 -> ad_vEnd (p_right p') = nofZ K 0 -> p_doneLength p' = nofZ K 0 -> p_doneDuration p' = nofZ K 0 ->
    p_aMax p' = p_aMax p -> p_dMax p' = p_dMax p -> p_jMax p' = p_jMax p ->
    good (whole (p_ramps K p' Vf firstOrder) Vf)).
  { intros p' A0 A1 A2 A3 Aa Ad Aj. destruct (ramps_first V Vf p' FV HV A0 A1 Aa Ad Aj) as (r1 & r3 & I1 & I3 & C1 & C3 & G1 & G3).
    unfold plain in *. 
    apply (G (p_ramps K p' Vf firstOrder) firstOrder (V / a) (V / d) r1 r3); auto.
    - apply (first_T V a HV' Ha).
    - apply (first_T V d HV' Hd).
    - left. replace (V * (V / a) / 2 + V * (V / d) / 2) with (V * V / (2 * a) + V * V / (2 * d)) by (field; lra). exact SUM. }
  assert (K1 : ad_vStart (p_left p1) = nofZ K 0 /\ ad_vEnd (p_right p1) = nofZ K 0).
  { unfold p1, p_ramps. cbn [p_left p_right]. split; [rewrite <- E0|rewrite <- E1].
    - unfold ad_calculate. destruct o; [reflexivity|]. repeat match goal with |- context [if ?c then _ else _] => destruct c end; reflexivity.
    - unfold ad_calculate. destruct o; [reflexivity|]. repeat match goal with |- context [if ?c then _ else _] => destruct c end; reflexivity. }
  destruct K1 as (K1 & K2).
  destruct (nltb K (nsub K lenf (p_doneLength p1)) (nadd K (ad_length (p_left p1)) (ad_length (p_right p1)))) eqn:B.
  { exact (FST p1 K1 K2 D0 D1 eq_refl eq_refl eq_refl). }
  destruct o.
  { exact (FST p E0 E1 D0 D1 eq_refl eq_refl eq_refl). }
  destruct (ramps_second V Vf p FV HV E0 E1 eq_refl eq_refl eq_refl) as (T1 & T3 & r1 & r3 & HT1 & HT3 & I1 & I3 & C1 & C3 & G1 & G3).
  apply (G p1 secondOrder T1 T3 r1 r3); auto; try lra. right. split; auto.
  fold p1 in C1, C3. destruct (cl_len _ _ _ _ _ _ C1) as (xl & Fl & El). destruct (cl_len _ _ _ _ _ _ C3) as (xr & Fr & Err).
  assert (B1 : 0 < V * T1 <= 562949953421312 /\ 0 < V * T3 <= 562949953421312).
  { unfold plain in *. split; (split; [apply Rmult_lt_0_compat; lra|]); replace 562949953421312 with (2097152 * 268435456) by lra; apply Rmult_le_compat; lra. }
  destruct B1 as (B1 & B3). apply Rabs_def3 in El. apply Rabs_def3 in Err.
  assert (S1 : 0 < eps * (V * T1) <= / 10000000 * (V * T1)) by (unfold eps; lra).
  assert (S3 : 0 < eps * (V * T3) <= / 10000000 * (V * T3)) by (unfold eps; lra).
  rewrite (r_L_avg V T1 j r1 a (- d) secondOrder 0 V I1 G1) in El. rewrite (r_L_avg V T3 j r3 a (- d) secondOrder V 0 I3 G3) in Err.
  assert (FS : fin32 (nadd K (ad_length (p_left p1)) (ad_length (p_right p1))) (rnd (xl + xr))).
  { apply (fin_add _ _ prec24 max24); auto. apply small_huge. apply abs_le. unfold highest. lra. }
  assert (FD : fin32 (nsub K lenf (p_doneLength p1)) L) by exact Flen.
  rewrite (K_ltb X _ _ _ _ FD FS) in B. apply ltb_ge in B. pose proof (rnd_err (xl + xr)) as RE. apply Rabs_def3 in RE.
  rewrite Rabs_pos_eq in RE by lra. unfold plain, eps, eta in *. lra.
Qed.
End Choice.
End Plan.

(** *** As stated *)
Lemma plan_float X p len minS fo a d j vm L : standing X p len fo a d j vm L ->
  let q := p_optimize (aF (sf_arith X)) p len minS fo maximizeSpeed in
  exists T l s v acc Tf, plan_spec 0 0 a (- d) vm 0 0 T l s v acc /\ Rabs (l - L) <= / 524288 * L /\
    (exists V, 0 < V <= vm /\ (V = vm \/ 65535/65536 * (2 * L / (/ a + / d)) <= V * V) /\ T * V <= 2 * l) /\
    float32 (p_duration q) Tf /\ Rabs (Tf - T) <= / 131072 * T /\
    (forall tf t, float32 tf t -> 0 <= t <= Tf -> exists x, float32 (p_s (aF (sf_arith X)) q tf) x /\ Rabs (x - s (Rmin t T)) <= / 65536 * L) /\
    exists x, float32 (p_s (aF (sf_arith X)) q (p_duration q)) x /\ Rabs (x - L) <= / 32768 * L /\ p_tStop q = ninf (aF (sf_arith X)).
Proof.
  intro S. cbv zeta. destruct (sd_cap _ _ _ _ _ _ _ _ _ S) as (c & Fc & Ec). destruct (sd_usual _ _ _ _ _ _ _ _ _ S) as (Ua & Ud & Uj & Uv & UL).
  destruct (sd_new _ _ _ _ _ _ _ _ _ S) as (N1 & N2). destruct (sd_still _ _ _ _ _ _ _ _ _ S) as (S1 & S2).
  destruct (optimize_near X a d j L vm p len minS fo c) as (T & l & s & v & acc & Tf & P & EL & FT & ET & PS & PE & STP & V & HV & VE & TV); auto.
  - apply (sd_ja _ _ _ _ _ _ _ _ _ S).
  - apply (sd_jd _ _ _ _ _ _ _ _ _ S).
  - rewrite Rmult_assoc. apply (sd_jL _ _ _ _ _ _ _ _ _ S).
  - apply fin_float32, (sd_a _ _ _ _ _ _ _ _ _ S).
  - apply fin_float32, (sd_d _ _ _ _ _ _ _ _ _ S).
  - apply fin_float32, (sd_j _ _ _ _ _ _ _ _ _ S).
  - apply fin_float32, (sd_len _ _ _ _ _ _ _ _ _ S).
  - now apply fin_float32.
  - unfold usual in UL. assert (PT : 0 <= T) by apply (ps_time _ _ _ _ _ _ _ _ _ _ _ _ P).
    exists T, l, s, v, acc, Tf. split; auto. split; [unfold eps in *; lra|].
    split. { exists V. split; auto. split; auto. destruct VE as [VE|VE]; [auto|right]. unfold usual in *.
      replace (2 * L / (/ a + / d)) with (2 * L * a * d / (a + d)) by (field; lra).
      assert (0 < 2 * L * a * d / (a + d)) by (apply Rdiv_lt_0_compat; [repeat apply Rmult_lt_0_compat|]; lra). unfold eps in VE. lra. }
    split; [now apply fin_float32|]. split; [unfold eps in *; lra|]. split.
    + intros tf t Ft Ht. destruct (PS tf t) as (x & Fx & Ex); auto; [now apply fin_float32|]. exists x. split; [now apply fin_float32|]. unfold eps in *. lra.
    + destruct PE as (x & Fx & Ex). exists x. split; [now apply fin_float32|]. split; [unfold eps in *; lra|exact STP].
Qed.

Lemma standing_example X : let A := sf_arith X in let m := linX A 100 20 in
  standing X (prof_setSpeed A (cnc3axis A) (p_zero (aF A)) (traj_set A m) m) (t_length (traj_set A m)) (nofZ (aF A) 1) 200 200 600 20 100.
Proof.
  cbv zeta.
  remember (prof_setSpeed _ _ _ _ _) as p eqn:E. vm_compute in E.
  remember (t_length _) as l eqn:El. vm_compute in El.
  assert (V : forall m e r, valid_binary 24 128 (S754_finite false m e) = true -> IZR (Z.pos m) * bpow radix2 e = r -> float32 (S754_finite false m e) r).
  { intros m e r H1 H2. apply f32; auto. rewrite Rmult_1_l. auto. }
  constructor; subst; try (split; reflexivity); unfold usual; try lra.
  - apply V; [reflexivity|]. change (bpow radix2 (-16)) with (/ 65536). lra.
  - cbn [p_dMax]. apply f32; [reflexivity|]. cbv iota. change (bpow radix2 (-16)) with (/ 65536). lra.
  - cbn [p_jMax]. apply V; [reflexivity|]. change (bpow radix2 (-14)) with (/ 16384). lra.
  - apply V; [reflexivity|]. change (bpow radix2 (-17)) with (/ 131072). lra.
  - eexists. split; [|vm_compute; reflexivity]. apply V; [reflexivity|]. change (bpow radix2 (-19)) with (/ 524288). lra.
Qed.
