(** binary32: a speed change from or to standstill, computed in floats, stays close to an exact one. *)
Require Import List Arith NArith ZArith Bool Reals Lra Lia.
From Coq Require Import Floats.SpecFloat.
From Verif Require Import Base Num NumR NumSF MotionModel CtrlModel ProfileSpec ProfileProofs PlanProofs FloatSpec FloatProofs FloatClockProofs FloatErrProofs.
Open Scope R_scope.

Lemma scl_mul x y a b c d : a <= x <= b -> c <= y <= d -> 0 < a -> 0 < c -> lowest <= a * c -> b * d <= highest -> scl (x * y).
Proof.
  intros. split.
  - apply Rle_trans with (a * c); auto. apply Rmult_le_compat; lra.
  - apply Rle_trans with (b * d); auto. apply Rmult_le_compat; lra.
Qed.
Lemma scl_div x y a b c d : a <= x <= b -> c <= y <= d -> 0 < a -> 0 < c -> lowest <= a * / d -> b * / c <= highest -> scl (x / y).
Proof.
  intros. unfold Rdiv. apply (scl_mul x (/ y) a b (/ d) (/ c)); auto.
  - split; apply Rinv_le_contravar; lra.
  - apply Rinv_0_lt_compat. lra.
Qed.
Lemma ltb_lt x y : Raux.Rlt_bool x y = true -> x < y.
Proof. unfold Raux.Rlt_bool. destruct (Raux.Rcompare_spec x y); auto; discriminate. Qed.
Lemma ltb_ge x y : Raux.Rlt_bool x y = false -> y <= x.
Proof. unfold Raux.Rlt_bool. destruct (Raux.Rcompare_spec x y); try discriminate; lra. Qed.
(** x y <= c from bounds on the factors *)
Lemma abs_mul x y b c : Rabs x <= b -> Rabs y <= c -> Rabs (x * y) <= b * c.
Proof. intros. rewrite Rabs_mult. apply Rmult_le_compat; auto using Rabs_pos. Qed.
Lemma abs_le x b : - b <= x <= b -> Rabs x <= b.
Proof. intro. apply Rabs_le. lra. Qed.

(** *** The three formulas of an exact ramp *)
Definition P1 (r : ramp) (t : R) : R := r_v0 r * t + r_J r * t * t * t * (1/6).
Definition P2 (r : ramp) (t : R) : R :=
  r_v0 r * r_d1 r + r_J r * r_d1 r * r_d1 r * r_d1 r * (1/6)
  + (r_v0 r + r_J r * r_d1 r * r_d1 r * (1/2)) * (t - r_d1 r) + r_A r * (t - r_d1 r) * (t - r_d1 r) * (1/2).
Definition P3 (r : ramp) (t : R) : R :=
  r_L r - (r_v1 r * (r_T r - t) - r_J r * (r_T r - t) * (r_T r - t) * (r_T r - t) * (1/6)).
Lemma r_s_forms r t : r_s r t = if rltb t (r_d1 r) then P1 r t else if rltb (r_d1 r + r_d2 r) t then P3 r t else P2 r t.
Proof. reflexivity. Qed.
Lemma P12 r t : P1 r t - P2 r t = (r_J r * r_d1 r - r_A r) * ((t - r_d1 r) * (t - r_d1 r)) / 2
                                  + r_J r * ((t - r_d1 r) * (t - r_d1 r) * (t - r_d1 r)) / 6.
Proof. unfold P1, P2. field. Qed.
Lemma P32 r t : r_v1 r = r_v0 r + r_J r * r_d1 r * r_d1 r + r_A r * r_d2 r ->
  let x := t - (r_d1 r + r_d2 r) in
  P3 r t - P2 r t = (r_J r * r_d1 r - r_A r) * (x * x) / 2 - r_J r * (x * x * x) / 6.
Proof. intros E x. unfold P3, P2, x, r_L, r_T. rewrite E. field. Qed.

(** A ramp between standstill and speed [V] that takes [T]; [j] is the jerk. *)
Record ideal (V T j : R) (r : ramp) : Prop := {
  id_dir : (r_v0 r = 0 /\ r_v1 r = V /\ r_J r = j /\ 0 <= r_A r) \/ (r_v0 r = V /\ r_v1 r = 0 /\ r_J r = - j /\ r_A r <= 0);
  id_eq : r_v1 r = r_v0 r + r_J r * r_d1 r * r_d1 r + r_A r * r_d2 r;
  id_d1 : 0 <= r_d1 r; id_d2 : 0 <= r_d2 r; id_T : r_T r = T;
  id_A : Rabs (r_A r) * T <= 2 * V;
  id_j : j * T * T <= 1048576 * V;
  id_order : r_d1 r = 0 \/ (T <= 1024 * r_d1 r /\ r_A r = r_J r * r_d1 r) }.

Section Forms.
Variables (V T j : R) (r : ramp).
Hypothesis I : ideal V T j r.
Hypothesis PV : 0 < V. Hypothesis PT : 0 < T. Hypothesis Pj : 0 < j.

Lemma abs_J : Rabs (r_J r) = j.
Proof. destruct (id_dir _ _ _ _ I) as [(_ & _ & -> & _)|(_ & _ & -> & _)]; [|rewrite Rabs_Ropp]; apply Rabs_pos_eq; lra. Qed.
Lemma q_le : j * r_d1 r * r_d1 r <= V.
Proof.
  pose proof (id_eq _ _ _ _ I) as E. pose proof (id_d2 _ _ _ _ I) as D2.
  destruct (id_dir _ _ _ _ I) as [(E1 & E2 & E3 & E4)|(E1 & E2 & E3 & E4)]; rewrite E1, E2, E3 in E.
  - assert (0 <= r_A r * r_d2 r) by (apply Rmult_le_pos; auto). lra.
  - assert (0 <= - r_A r * r_d2 r) by (apply Rmult_le_pos; lra). lra.
Qed.
Lemma d1_half : r_d1 r <= T / 2 /\ r_d1 r + r_d2 r <= T.
Proof. pose proof (id_T _ _ _ _ I) as E. pose proof (id_d2 _ _ _ _ I). pose proof (id_d1 _ _ _ _ I). unfold r_T in E. lra. Qed.

Let m := / 1000 * (eps * (V * T)).
Lemma tiny x c : Rabs c = j -> Rabs x <= 13 * (eps * T) ->
  Rabs ((r_J r * r_d1 r - r_A r) * (x * x) / 2 + c * (x * x * x) / 6) <= m.
Proof.
  intros HC HX. assert (PX := Rabs_pos x).
  assert (EX : x * x = Rabs x * Rabs x) by (rewrite <- Rabs_mult; symmetry; apply Rabs_pos_eq; apply Rle_0_sqr).
  assert (X2 : x * x <= 169 * eps * eps * (T * T)).
  { rewrite EX. replace (169 * eps * eps * (T * T)) with (13 * (eps * T) * (13 * (eps * T))) by ring. apply Rmult_le_compat; auto. }
  assert (PE : 0 < eps) by (unfold eps; lra).
  assert (PVT : 0 < V * T) by (apply Rmult_lt_0_compat; auto).
  assert (A1 : Rabs ((r_J r * r_d1 r - r_A r) * (x * x) / 2) <= / 2000 * (eps * (V * T))).
  { destruct (id_order _ _ _ _ I) as [->|(_ & ->)].
    - replace ((r_J r * 0 - r_A r) * (x * x) / 2) with (- r_A r * (x * x / 2)) by field. rewrite Rabs_mult, Rabs_Ropp.
      rewrite (Rabs_pos_eq (x * x / 2)) by (pose proof (Rle_0_sqr x); unfold Rsqr in *; lra).
      pose proof (id_A _ _ _ _ I) as HA. pose proof (Rabs_pos (r_A r)) as PA.
      apply Rle_trans with (Rabs (r_A r) * (169 * eps * eps * (T * T) / 2)); [apply Rmult_le_compat_l; lra|].
      replace (Rabs (r_A r) * (169 * eps * eps * (T * T) / 2)) with (169 / 2 * eps * eps * T * (Rabs (r_A r) * T)) by field.
      apply Rle_trans with (169 / 2 * eps * eps * T * (2 * V)); [apply Rmult_le_compat_l; auto|].
      + repeat apply Rmult_le_pos; lra.
      + replace (169 / 2 * eps * eps * T * (2 * V)) with (169 * eps * (eps * (V * T))) by field.
        apply Rmult_le_compat_r; [apply Rmult_le_pos; lra|]. unfold eps. lra.
    - replace ((r_J r * r_d1 r - r_J r * r_d1 r) * (x * x) / 2) with 0 by field. rewrite Rabs_R0. apply Rmult_le_pos; [lra|apply Rmult_le_pos; lra]. }
  assert (A2 : Rabs (c * (x * x * x) / 6) <= / 2000 * (eps * (V * T))).
  { replace (c * (x * x * x) / 6) with (c * (x * x) * (x / 6)) by field. rewrite !Rabs_mult, HC.
    pose proof (Rle_0_sqr x) as SQ. unfold Rsqr in SQ.
    replace (Rabs (x / 6)) with (Rabs x / 6). 2: { unfold Rdiv. rewrite Rabs_mult, (Rabs_pos_eq (/ 6)); lra. }
    rewrite <- Rabs_mult, (Rabs_pos_eq (x * x)) by auto.
    apply Rle_trans with (j * (169 * eps * eps * (T * T)) * (13 * (eps * T) / 6)).
    - apply Rmult_le_compat; [apply Rmult_le_pos; lra|lra|apply Rmult_le_compat_l; lra|lra].
    - pose proof (id_j _ _ _ _ I) as HJ.
      replace (j * (169 * eps * eps * (T * T)) * (13 * (eps * T) / 6)) with (j * T * T * (2197 / 6 * eps * eps * eps * T)) by field.
      apply Rle_trans with (1048576 * V * (2197 / 6 * eps * eps * eps * T)); [apply Rmult_le_compat_r; auto; repeat apply Rmult_le_pos; lra|].
      replace (1048576 * V * (2197 / 6 * eps * eps * eps * T)) with (1048576 * 2197 / 6 * eps * eps * (eps * (V * T))) by field.
      apply Rmult_le_compat_r; [apply Rmult_le_pos; lra|]. unfold eps. lra. }
  replace m with (/ 2000 * (eps * (V * T)) + / 2000 * (eps * (V * T))) by (unfold m; lra). apply Rabs_sum; auto.
Qed.
Lemma m_pos : 0 <= m.
Proof. unfold m. apply Rmult_le_pos; [lra|]. apply Rmult_le_pos; [unfold eps; lra|]. apply Rlt_le, Rmult_lt_0_compat; auto. Qed.
Lemma tiny12 t : Rabs (t - r_d1 r) <= 13 * (eps * T) -> Rabs (P1 r t - P2 r t) <= m.
Proof. intro H. rewrite P12. apply tiny; auto. apply abs_J. Qed.
Lemma tiny32 t : Rabs (t - (r_d1 r + r_d2 r)) <= 13 * (eps * T) -> Rabs (P3 r t - P2 r t) <= m.
Proof.
  intro H. rewrite P32 by apply (id_eq _ _ _ _ I). cbv zeta. set (x := t - (r_d1 r + r_d2 r)) in *.
  replace (_ - r_J r * (x * x * x) / 6) with ((r_J r * r_d1 r - r_A r) * (x * x) / 2 + - r_J r * (x * x * x) / 6) by field.
  apply tiny; auto. rewrite Rabs_Ropp. apply abs_J.
Qed.
Lemma near_P2 t : r_d1 r - 13 * (eps * T) <= t <= r_d1 r + r_d2 r + 13 * (eps * T) -> Rabs (P2 r t - r_s r t) <= m.
Proof.
  intro H. rewrite r_s_forms, rltb_if. destruct (Rlt_dec t (r_d1 r)).
  - rewrite Rabs_minus_sym. apply tiny12. apply abs_le. lra.
  - rewrite rltb_if. destruct (Rlt_dec (r_d1 r + r_d2 r) t).
    + rewrite Rabs_minus_sym. apply tiny32. apply abs_le. lra.
    + unfold Rminus. rewrite Rplus_opp_r, Rabs_R0. apply m_pos.
Qed.
Lemma near_P1 t : t <= r_d1 r + 13 * (eps * T) -> Rabs (P1 r t - r_s r t) <= 2 * m.
Proof.
  intro H. pose proof m_pos as PM. pose proof (id_d2 _ _ _ _ I). destruct (Rlt_dec t (r_d1 r)) as [L|G].
  - rewrite r_s_forms, rltb_if. destruct (Rlt_dec t (r_d1 r)); [|lra]. unfold Rminus. rewrite Rplus_opp_r, Rabs_R0. lra.
  - assert (PE : 0 < eps * T) by (apply Rmult_lt_0_compat; auto; unfold eps; lra).
    replace (P1 r t - r_s r t) with ((P1 r t - P2 r t) + (P2 r t - r_s r t)) by ring. replace (2 * m) with (m + m) by ring. apply Rabs_sum.
    + apply tiny12. apply abs_le. lra.
    + apply near_P2. lra.
Qed.
Lemma near_P3 t : r_d1 r + r_d2 r - 13 * (eps * T) <= t -> Rabs (P3 r t - r_s r t) <= 2 * m.
Proof.
  intro H. pose proof m_pos as PM. pose proof (id_d2 _ _ _ _ I). destruct (Rlt_dec (r_d1 r + r_d2 r) t) as [L|G].
  - rewrite r_s_forms, rltb_if. destruct (Rlt_dec t (r_d1 r)); [lra|]. rewrite rltb_if. destruct (Rlt_dec (r_d1 r + r_d2 r) t); [|lra].
    unfold Rminus. rewrite Rplus_opp_r, Rabs_R0. lra.
  - assert (PE : 0 < eps * T) by (apply Rmult_lt_0_compat; auto; unfold eps; lra).
    replace (P3 r t - r_s r t) with ((P3 r t - P2 r t) + (P2 r t - r_s r t)) by ring. replace (2 * m) with (m + m) by ring. apply Rabs_sum.
    + apply tiny32. apply abs_le. lra.
    + apply near_P2. lra.
Qed.
End Forms.

Section Ramp.
Variable X : sf_funs.
Notation K := (aF (sf_arith X)).

(** j y y y / 6 *)
Lemma cube_fap jf yf j y M V : fin32 jf j -> fin32 yf y -> Rabs y <= M -> 0 < j -> 0 < V -> 0 < M -> j * M * M <= 11/10 * V ->
  scl (11/10 * V / M) -> scl (11/10 * V) -> scl (11/10 * V * M) -> scl (11/60 * V * M) ->
  fap (V * M) (6/5) (nmul K (nmul K (nmul K (nmul K jf yf) yf) yf) (ndiv K (nofZ K 1) (nofZ K 6))) (j * y * y * y * (1/6))
  /\ Rabs (j * y * y * y * (1/6)) <= 1/5 * (V * M).
Proof.
  intros Fj Fy Y Pj PV PM E S1 S2 S3 S4.
  assert (B1 : Rabs (j * y) <= 11/10 * V / M).
  { rewrite Rabs_mult, (Rabs_pos_eq j) by lra. apply Rle_trans with (j * M); [apply Rmult_le_compat_l; lra|].
    apply Rmult_le_reg_r with M; auto. unfold Rdiv. rewrite !Rmult_assoc, Rinv_l by lra. lra. }
  assert (B2 : Rabs (j * y * y) <= 11/10 * V).
  { replace (11/10 * V) with (11/10 * V / M * M) by (field; lra). apply abs_mul; auto. }
  assert (B3 : Rabs (j * y * y * y) <= 11/10 * V * M) by (apply abs_mul; auto).
  split.
  - assert (F1 : fap (11/10 * V / M) (5/4) (nmul K jf yf) (j * y)).
    { eapply fap_weak; [apply (fap_mul X (11/10 * V / M / M) M 0 0); try apply fap_exact; auto; try lra|].
      - apply Rlt_le. apply Rdiv_lt_0_compat; auto. apply Rdiv_lt_0_compat; lra.
      - rewrite Rabs_pos_eq by lra. apply Rmult_le_reg_r with M; auto. apply Rmult_le_reg_r with M; auto.
        replace (11/10 * V / M / M * M * M) with (11/10 * V) by (field; lra). lra.
      - apply Rdiv_lt_0_compat; auto. apply Rdiv_lt_0_compat; lra.
      - replace (11/10 * V / M / M * M) with (11/10 * V / M) by (field; lra). auto.
      - replace (11/10 * V / M / M * M) with (11/10 * V / M) by (field; lra). lra. }
    assert (PB : 0 < 11/10 * V / M) by (apply Rdiv_lt_0_compat; lra).
    assert (F2 : fap (11/10 * V) (5/2) (nmul K (nmul K jf yf) yf) (j * y * y)).
    { eapply fap_weak; [apply (fap_mul X (11/10 * V / M) M (5/4) 0); try apply fap_exact; auto; try lra|];
        replace (11/10 * V / M * M) with (11/10 * V) by (field; lra); auto; lra. }
    assert (F3 : fap (11/10 * V * M) (15/4) (nmul K (nmul K (nmul K jf yf) yf) yf) (j * y * y * y)).
    { eapply fap_weak; [apply (fap_mul X (11/10 * V) M (5/2) 0); try apply fap_exact; auto; try lra|]. lra. }
    eapply fap_weak; [apply (fap_mul X (11/10 * V * M) (1/6) (15/4) (9/8)); auto using fap_sixth; try lra|].
    + rewrite Rabs_pos_eq; lra.
    + apply Rmult_lt_0_compat; lra.
    + replace (11/10 * V * M * (1/6)) with (11/60 * V * M) by field. auto.
    + assert (0 < V * M) by (apply Rmult_lt_0_compat; auto). lra.
  - assert (0 < V * M) by (apply Rmult_lt_0_compat; auto).
    eapply Rle_trans; [apply (abs_mul _ _ (11/10 * V * M) (1/6)); auto; rewrite Rabs_pos_eq; lra|]. lra.
Qed.

(** v y plus or minus the cube, [v] being 0 or V *)
Lemma poly_fap jf yf vf j y v M V : fin32 jf j -> fin32 yf y -> fin32 vf v -> 0 <= v <= V -> Rabs y <= M -> 0 < j -> 0 < V -> 0 < M ->
  j * M * M <= 11/10 * V -> scl (11/10 * V / M) -> scl (11/10 * V) -> scl (11/10 * V * M) -> scl (11/60 * V * M) -> scl (6/5 * V * M) -> scl (V * M) ->
  let c := nmul K (nmul K (nmul K (nmul K jf yf) yf) yf) (ndiv K (nofZ K 1) (nofZ K 6)) in
  fap (V * M) 4 (nadd K (nmul K vf yf) c) (v * y + j * y * y * y * (1/6)) /\
  fap (V * M) 4 (nsub K (nmul K vf yf) c) (v * y - j * y * y * y * (1/6)).
Proof.
  intros Fj Fy Fv HV Y Pj PV PM E S1 S2 S3 S4 S5 S6 c.
  destruct (cube_fap jf yf j y M V) as (C1 & C2); auto. fold c in C1.
  assert (PVM : 0 < V * M) by (apply Rmult_lt_0_compat; auto).
  assert (F1 : fap (V * M) (5/4) (nmul K vf yf) (v * y)).
  { eapply fap_weak; [apply (fap_mul X V M 0 0); try apply fap_exact; auto; try lra|]. rewrite Rabs_pos_eq; lra. lra. }
  assert (B : Rabs (v * y) <= V * M) by (apply abs_mul; auto; rewrite Rabs_pos_eq; lra).
  split.
  - eapply fap_weak; [apply (fap_add X (6/5 * V * M) (25/24) 1 _ _ (v * y) (j * y * y * y * (1/6)))|]; auto.
    + eapply fap_weak; [exact F1|lra].
    + eapply fap_weak; [exact C1|lra].
    + eapply Rle_trans; [apply Rabs_sum; eauto|lra].
    + lra.
    + lra.
  - eapply fap_weak; [apply (fap_sub X (6/5 * V * M) (25/24) 1 _ _ (v * y) (j * y * y * y * (1/6)))|]; auto.
    + eapply fap_weak; [exact F1|lra].
    + eapply fap_weak; [exact C1|lra].
    + eapply Rle_trans; [unfold Rminus; apply Rabs_sum; eauto; rewrite Rabs_Ropp; eauto|lra].
    + lra.
    + lra.
Qed.

(** The numbers stored for a ramp are close to those of [r]. *)
Record close (V T j : R) (r : ramp) (p : accdec sf) : Prop := {
  cl_v0 : fin32 (ad_vStart p) (r_v0 r); cl_v1 : fin32 (ad_vEnd p) (r_v1 r); cl_j : fin32 (ad_jMax p) j;
  cl_d1 : fap (r_d1 r) 6 (ad_d1d3 p) (r_d1 r);
  cl_d12 : fap T (25/2) (nadd K (ad_d1d3 p) (ad_d2 p)) (r_d1 r + r_d2 r);
  cl_d2 : r_d1 r = 0 -> fap T (9/8) (nadd K (ad_d1d3 p) (ad_d2 p)) (r_d1 r + r_d2 r);
  cl_dur : fap T 17 (ad_duration p) T;
  cl_A : fap (2 * V / T) (15/2) (if nltb K (ad_vStart p) (ad_vEnd p) then ad_aMax p else ad_dMax p) (r_A r);
  cl_dV1 : fap V 8 (ad_dV1 p) (r_J r * r_d1 r * r_d1 r * (1/2));
  cl_s1 : fap (V * T) 7 (ad_s1 p) (r_v0 r * r_d1 r + r_J r * r_d1 r * r_d1 r * r_d1 r * (1/6));
  cl_len : fap (V * T) 10 (ad_length p) (r_L r) }.

Section Eval.
Variables (V T W j : R) (r : ramp) (p : accdec sf).
Hypothesis I : ideal V T j r.
Hypothesis C : close V T j r p.
Hypothesis Pj : 0 < j.
Hypothesis HV : / 65536 <= V <= 2097152.
Hypothesis HT : / 68719476736 <= T.
Hypothesis HW : T <= W <= 35184372088832.
Hypothesis HX : 25 * (eps * eps) * (j * W * W) <= V.

Let PV : 0 < V. Proof. lra. Qed.
Let PT : 0 < T. Proof. lra. Qed.
Let PVT : 0 < V * T. Proof. apply Rmult_lt_0_compat; lra. Qed.
Let PE : 0 < eps. Proof. unfold eps. lra. Qed.
Let LVT : V * T <= V * W. Proof. apply Rmult_le_compat_l; lra. Qed.

Lemma good_M M : / 1024 * T <= M <= W ->
  scl (11/10 * V / M) /\ scl (11/10 * V) /\ scl (11/10 * V * M) /\ scl (11/60 * V * M) /\ scl (6/5 * V * M) /\ scl (V * M).
Proof.
  intro HM. split; [|split; [|split; [|split; [|split]]]].
  - apply (scl_div (11/10 * V) M (11/10 * / 65536) (11/10 * 2097152) (/ 70368744177664) 35184372088832); unfold lowest, highest; lra.
  - unfold scl, lowest, highest; lra.
  - apply (scl_mul (11/10 * V) M (11/10 * / 65536) (11/10 * 2097152) (/ 70368744177664) 35184372088832); unfold lowest, highest; lra.
  - apply (scl_mul (11/60 * V) M (11/60 * / 65536) (11/60 * 2097152) (/ 70368744177664) 35184372088832); unfold lowest, highest; lra.
  - apply (scl_mul (6/5 * V) M (6/5 * / 65536) (6/5 * 2097152) (/ 70368744177664) 35184372088832); unfold lowest, highest; lra.
  - apply (scl_mul V M (/ 65536) 2097152 (/ 70368744177664) 35184372088832); unfold lowest, highest; lra.
Qed.
Lemma jM M : 0 < M -> M <= 101/100 * r_d1 r \/ M <= / 1024 * T \/ M <= 5 * (eps * W) -> j * M * M <= 11/10 * V.
Proof.
  intros PM [H|[H|H]].
  - pose proof (q_le _ _ _ _ I). assert (M * M <= 101/100 * r_d1 r * (101/100 * r_d1 r)) by (apply Rmult_le_compat; lra).
    apply Rle_trans with (j * (101/100 * r_d1 r * (101/100 * r_d1 r))); [rewrite Rmult_assoc; apply Rmult_le_compat_l; lra|]. lra.
  - pose proof (id_j _ _ _ _ I). assert (M * M <= / 1024 * T * (/ 1024 * T)) by (apply Rmult_le_compat; lra).
    apply Rle_trans with (j * (/ 1024 * T * (/ 1024 * T))); [rewrite Rmult_assoc; apply Rmult_le_compat_l; lra|]. lra.
  - assert (M * M <= 5 * (eps * W) * (5 * (eps * W))) by (apply Rmult_le_compat; lra).
    apply Rle_trans with (j * (5 * (eps * W) * (5 * (eps * W)))); [rewrite Rmult_assoc; apply Rmult_le_compat_l; lra|]. lra.
Qed.

(** first formula *)
Lemma eval1 tf t : fin32 tf t -> 0 <= t -> nltb K tf (ad_d1d3 p) = true ->
  let c := nmul K (nmul K (nmul K (nmul K (ad_jMax p) tf) tf) tf) (ndiv K (nofZ K 1) (nofZ K 6)) in
  fap (V * W) 53 (if nltb K (ad_vStart p) (ad_vEnd p) then nadd K (nmul K (ad_vStart p) tf) c else nsub K (nmul K (ad_vStart p) tf) c) (r_s r (Rmin t T)).
Proof.
  intros Ft Pt B c. destruct (cl_d1 _ _ _ _ _ C) as (x1 & F1 & E1).
  pose proof (id_d1 _ _ _ _ I) as D1. destruct (d1_half _ _ _ _ I) as (DH & DT).
  rewrite (K_ltb X _ _ _ _ Ft F1) in B. apply ltb_lt in B.
  apply Rabs_def3 in E1. assert (ED : 6 * (eps * r_d1 r) <= / 1000 * r_d1 r) by (unfold eps; lra).
  assert (NZ : 0 < r_d1 r) by lra.
  assert (HO : T <= 1024 * r_d1 r) by (destruct (id_order _ _ _ _ I) as [?|(? & _)]; lra).
  destruct (good_M (101/100 * r_d1 r)) as (S1 & S2 & S3 & S4 & S5 & S6); [lra|].
  rewrite Rmin_left by lra.
  destruct (poly_fap (ad_jMax p) tf (ad_vStart p) j t (r_v0 r) (101/100 * r_d1 r) V) as (Q1 & Q2); auto; try lra.
  { apply (cl_j _ _ _ _ _ C). } { apply (cl_v0 _ _ _ _ _ C). }
  { destruct (id_dir _ _ _ _ I) as [(-> & _)|(-> & _)]; lra. }
  { apply abs_le. lra. } { apply jM; lra. }
  fold c in Q1, Q2.
  assert (N : Rabs (P1 r t - r_s r t) <= 3 * (eps * (V * (101/100 * r_d1 r)))).
  { eapply Rle_trans; [apply (near_P1 _ _ _ _ I); auto|].
    - assert (6 * (eps * r_d1 r) <= 13 * (eps * T)); [|lra]. assert (eps * r_d1 r <= eps * T) by (apply Rmult_le_compat_l; lra). 
      assert (0 < eps * r_d1 r) by (apply Rmult_lt_0_compat; auto). lra.
    - replace (2 * (/ 1000 * (eps * (V * T)))) with (3 * (eps * (V * (2 / 3000 * T)))) by field. apply Rmult_le_compat_l; [lra|].
      apply Rmult_le_compat_l; [lra|]. apply Rmult_le_compat_l; lra. }
  assert (VD : V * r_d1 r <= V * W) by (apply Rmult_le_compat_l; lra).
  eapply fap_weak; [eapply fap_moved; [|exact N]|].
  - unfold P1. rewrite (K_ltb X _ _ _ _ (cl_v0 _ _ _ _ _ C) (cl_v1 _ _ _ _ _ C)).
    destruct (id_dir _ _ _ _ I) as [(E3 & E4 & E5 & _)|(E3 & E4 & E5 & _)].
    + rewrite E4, E5. rewrite E3 in *. rewrite Raux.Rlt_bool_true by lra. exact Q1.
    + rewrite E4, E5. rewrite E3 in *. rewrite Raux.Rlt_bool_false by lra. eapply fap_eq; [exact Q2|]. ring.
  - lra.
Qed.

Let SVT : scl (V * T) /\ scl V /\ scl (2 * V / T) /\ scl (2 * V) /\ scl T /\ scl (2 * (V * T)) /\ scl (3 * (V * T)).
Proof.
  split; [|split; [|split; [|split; [|split; [|split]]]]].
  - apply (scl_mul V T (/ 65536) 2097152 (/ 68719476736) 35184372088832); unfold lowest, highest; lra.
  - unfold scl, lowest, highest. lra.
  - apply (scl_div (2 * V) T (2 * / 65536) (2 * 2097152) (/ 68719476736) 35184372088832); unfold lowest, highest; lra.
  - unfold scl, lowest, highest. lra.
  - unfold scl, lowest, highest. lra.
  - rewrite <- Rmult_assoc. apply (scl_mul (2 * V) T (2 * / 65536) (2 * 2097152) (/ 68719476736) 35184372088832); unfold lowest, highest; lra.
  - rewrite <- Rmult_assoc. apply (scl_mul (3 * V) T (3 * / 65536) (3 * 2097152) (/ 68719476736) 35184372088832); unfold lowest, highest; lra.
Qed.
Let V01 : 0 <= r_v0 r <= V /\ 0 <= r_v1 r <= V.
Proof. destruct (id_dir _ _ _ _ I) as [(-> & -> & _)|(-> & -> & _)]; lra. Qed.

(** middle formula *)
Lemma eval2 tf t : fin32 tf t -> 0 <= t -> nltb K tf (ad_d1d3 p) = false -> nltb K (nadd K (ad_d1d3 p) (ad_d2 p)) tf = false ->
  let tM := nsub K tf (ad_d1d3 p) in
  fap (V * W) 53 (nadd K (nadd K (ad_s1 p) (nmul K (nadd K (ad_vStart p) (ad_dV1 p)) tM))
     (nmul K (nmul K (nmul K (if nltb K (ad_vStart p) (ad_vEnd p) then ad_aMax p else ad_dMax p) tM) tM) (ndec K 5 1))) (r_s r (Rmin t T)).
Proof.
  intros Ft Pt B1 B2 tM. destruct (cl_d1 _ _ _ _ _ C) as (x1 & F1 & E1). destruct (cl_d12 _ _ _ _ _ C) as (x2 & F2 & E2).
  pose proof (id_d1 _ _ _ _ I) as D1. destruct (d1_half _ _ _ _ I) as (DH & DT). pose proof (q_le _ _ _ _ I) as Q.
  destruct SVT as (S1 & S2 & S3 & S4 & S5 & S6 & S7). destruct V01 as (V0 & _).
  rewrite (K_ltb X _ _ _ _ Ft F1) in B1. rewrite (K_ltb X _ _ _ _ F2 Ft) in B2. apply ltb_ge in B1, B2.
  apply Rabs_def3 in E1, E2.
  assert (ET : 0 < eps * T) by (apply Rmult_lt_0_compat; auto).
  assert (EDT : eps * r_d1 r <= eps * (T / 2)) by (apply Rmult_le_compat_l; lra).
  assert (ES : eps * T <= / 10000000 * T) by (unfold eps; lra).
  set (u := Rmin t T).
  assert (U : u <= t <= u + 9/8 * (eps * T) /\ u <= T /\ r_d1 r - 3 * (eps * T) <= u <= r_d1 r + r_d2 r + 25/2 * (eps * T)).
  { assert (TD : T - (r_d1 r + r_d2 r) = r_d1 r) by (rewrite <- (id_T _ _ _ _ I); unfold r_T; ring).
    unfold u. destruct (id_order _ _ _ _ I) as [Z|(O & _)].
    - destruct (cl_d2 _ _ _ _ _ C Z) as (x2' & F2' & E2').
      assert (x2' = x2) as ->.
      { apply fin_float32 in F2, F2'. destruct F2 as (_ & F2), F2' as (_ & F2'). congruence. }
      apply Rabs_def3 in E2'. rewrite Z in *. unfold Rmin. destruct (Rle_dec t T); lra.
    - rewrite Rmin_left; lra. }
  destruct U as (U1 & U2 & U3).
  assert (BU : Rabs (u - r_d1 r) <= T) by (apply abs_le; lra).
  assert (HM : fap T (53/10) tM (u - r_d1 r)).
  { eapply fap_weak; [eapply (fap_moved T (3 + 23/20) tM (t - r_d1 r) (u - r_d1 r) (9/8))|lra].
    - eapply fap_weak; [apply (fap_sub X (101/100 * T) 0 (300/101) tf (ad_d1d3 p) t (r_d1 r))|]; auto; try lra.
      + apply fap_exact; auto; lra.
      + eapply fap_weak; [apply (cl_d1 _ _ _ _ _ C)|lra].
      + apply abs_le. lra.
      + unfold scl, lowest, highest in *. lra.
    - apply abs_le. lra. }
  assert (HV1 : fap V (8 + 9/8) (nadd K (ad_vStart p) (ad_dV1 p)) (r_v0 r + r_J r * r_d1 r * r_d1 r * (1/2)) /\
                Rabs (r_v0 r + r_J r * r_d1 r * r_d1 r * (1/2)) <= V).
  { assert (BV : Rabs (r_v0 r + r_J r * r_d1 r * r_d1 r * (1/2)) <= V).
    { assert (0 <= j * r_d1 r * r_d1 r) by (repeat apply Rmult_le_pos; lra).
      apply abs_le. destruct (id_dir _ _ _ _ I) as [(-> & _ & -> & _)|(-> & _ & -> & _)]; lra. }
    split; auto. eapply fap_weak; [apply (fap_add X V 0 8)|]; auto; try lra; [|apply (cl_dV1 _ _ _ _ _ C)].
    apply fap_exact; [lra|]. apply (cl_v0 _ _ _ _ _ C). }
  destruct HV1 as (HV1 & BV).
  assert (H2 : fap (V * T) 16 (nmul K (nadd K (ad_vStart p) (ad_dV1 p)) tM) ((r_v0 r + r_J r * r_d1 r * r_d1 r * (1/2)) * (u - r_d1 r))).
  { eapply fap_weak; [apply (fap_mul X V T (8 + 9/8) (53/10))|]; auto; lra. }
  assert (BA : Rabs (r_A r) <= 2 * V / T).
  { apply Rmult_le_reg_r with T; auto. pose proof (id_A _ _ _ _ I). unfold Rdiv. rewrite (Rmult_assoc (2 * V)), Rinv_l by lra. lra. }
  assert (PD : 0 < 2 * V / T) by (apply Rdiv_lt_0_compat; lra).
  assert (ED : 2 * V / T * T = 2 * V) by (field; lra).
  pose proof (cl_A _ _ _ _ _ C) as HA. set (Af := if nltb K (ad_vStart p) (ad_vEnd p) then ad_aMax p else ad_dMax p) in *.
  assert (H3 : fap (2 * V) (57/4) (nmul K Af tM) (r_A r * (u - r_d1 r)) /\ Rabs (r_A r * (u - r_d1 r)) <= 2 * V).
  { rewrite <- ED. split; [|apply abs_mul; auto]. eapply fap_weak; [apply (fap_mul X (2 * V / T) T (15/2) (53/10))|]; auto; try lra. rewrite ED. auto. }
  destruct H3 as (H3 & B3).
  assert (H4 : fap (2 * V * T) 21 (nmul K (nmul K Af tM) tM) (r_A r * (u - r_d1 r) * (u - r_d1 r)) /\ Rabs (r_A r * (u - r_d1 r) * (u - r_d1 r)) <= 2 * V * T).
  { split; [|apply abs_mul; auto]. eapply fap_weak; [apply (fap_mul X (2 * V) T (57/4) (53/10))|]; auto; try lra. rewrite Rmult_assoc. auto. }
  destruct H4 as (H4 & B4).
  assert (H5 : fap (V * T) (89/4) (nmul K (nmul K (nmul K Af tM) tM) (ndec K 5 1)) (r_A r * (u - r_d1 r) * (u - r_d1 r) * (1/2)) /\
               Rabs (r_A r * (u - r_d1 r) * (u - r_d1 r) * (1/2)) <= V * T).
  { replace (V * T) with (2 * V * T * (1/2)) by field. assert (R2 : Rabs (1/2) <= 1/2) by (rewrite Rabs_pos_eq; lra).
    split; [|apply abs_mul; auto]. eapply fap_weak; [apply (fap_mul X (2 * V * T) (1/2) 21 0)|]; auto; try lra.
    - apply fap_exact; [lra|]. apply fin_half.
    - replace (2 * V * T * (1/2)) with (V * T) by field. auto. }
  destruct H5 as (H5 & B5).
  assert (B6 : Rabs (r_v0 r * r_d1 r + r_J r * r_d1 r * r_d1 r * r_d1 r * (1/6)) <= 2/3 * (V * T)).
  { assert (Rabs (r_v0 r * r_d1 r) <= V * (T / 2)) by (apply abs_mul; rewrite Rabs_pos_eq; lra).
    assert (Rabs (r_J r * r_d1 r * r_d1 r * r_d1 r * (1/6)) <= V * (T / 2) * (1/6)).
    { apply abs_mul; [|rewrite Rabs_pos_eq; lra]. apply abs_mul; [|rewrite Rabs_pos_eq; lra].
      rewrite !Rabs_mult, (abs_J _ _ _ _ I Pj), !(Rabs_pos_eq (r_d1 r)) by auto. auto. }
    eapply Rle_trans; [apply Rabs_sum; eassumption|]. lra. }
  assert (B7 : Rabs ((r_v0 r + r_J r * r_d1 r * r_d1 r * (1/2)) * (u - r_d1 r)) <= V * T) by (apply abs_mul; auto).
  assert (H8 : fap (2 * (V * T)) 13 (nadd K (ad_s1 p) (nmul K (nadd K (ad_vStart p) (ad_dV1 p)) tM))
     (r_v0 r * r_d1 r + r_J r * r_d1 r * r_d1 r * r_d1 r * (1/6) + (r_v0 r + r_J r * r_d1 r * r_d1 r * (1/2)) * (u - r_d1 r))).
  { eapply fap_weak; [apply (fap_add X (2 * (V * T)) (7/2) 8)|]; auto; try lra.
    - eapply fap_weak; [apply (cl_s1 _ _ _ _ _ C)|lra].
    - eapply fap_weak; [exact H2|lra].
    - eapply Rle_trans; [apply Rabs_sum; eassumption|]. lra. }
  assert (H9 : fap (3 * (V * T)) (52/3) (nadd K (nadd K (ad_s1 p) (nmul K (nadd K (ad_vStart p) (ad_dV1 p)) tM)) (nmul K (nmul K (nmul K Af tM) tM) (ndec K 5 1))) (P2 r u)).
  { unfold P2. eapply fap_weak; [apply (fap_add X (3 * (V * T)) (26/3) (89/12))|]; auto; try lra.
    - eapply fap_weak; [exact H8|lra].
    - eapply fap_weak; [exact H5|lra].
    - eapply Rle_trans; [apply Rabs_sum; [apply Rabs_sum|]; eassumption|]. lra. }
  eapply fap_weak; [eapply fap_moved; [exact H9|]|].
  - eapply Rle_trans; [apply (near_P2 _ _ _ _ I); auto; lra|]. instantiate (1 := / 3000). lra.
  - lra.
Qed.

Lemma lip3 y z M : Rabs y <= M -> Rabs z <= M -> j * M * M <= 11/10 * V ->
  Rabs ((r_v1 r * y - r_J r * y * y * y * (1/6)) - (r_v1 r * z - r_J r * z * z * z * (1/6))) <= V * Rabs (y - z).
Proof.
  intros Y Z E.
  replace ((r_v1 r * y - r_J r * y * y * y * (1/6)) - (r_v1 r * z - r_J r * z * z * z * (1/6)))
    with ((r_v1 r - r_J r * (y * y + y * z + z * z) * (1/6)) * (y - z)) by field.
  rewrite Rabs_mult. apply Rmult_le_compat_r; [apply Rabs_pos|].
  assert (m0 : 0 <= y * y + y * z + z * z).
  { replace (y * y + y * z + z * z) with ((y + z / 2) * (y + z / 2) + 3/4 * (z * z)) by field.
    pose proof (Rle_0_sqr (y + z / 2)). pose proof (Rle_0_sqr z). unfold Rsqr in *. lra. }
  assert (m1 : y * y + y * z + z * z <= 3 * (M * M)).
  { pose proof (abs_mul _ _ _ _ Y Y) as A1. pose proof (abs_mul _ _ _ _ Y Z) as A2. pose proof (abs_mul _ _ _ _ Z Z) as A3.
    apply Rabs_def3 in A1, A2, A3. lra. }
  assert (m2 : 0 <= j * (y * y + y * z + z * z) <= 3 * (11/10 * V)).
  { split; [apply Rmult_le_pos; lra|]. apply Rle_trans with (j * (3 * (M * M))); [apply Rmult_le_compat_l; lra|lra]. }
  apply abs_le. destruct (id_dir _ _ _ _ I) as [(_ & -> & -> & _)|(_ & -> & -> & _)]; lra.
Qed.

(** last formula *)
Lemma eval3 tf t y0 : fin32 tf t -> 0 <= t -> fin32 (ad_duration p) y0 -> t <= y0 + 9/2 * (eps * W) -> nltb K (nadd K (ad_d1d3 p) (ad_d2 p)) tf = true ->
  let tE := nsub K (ad_duration p) tf in
  let c := nmul K (nmul K (nmul K (nmul K (ad_jMax p) tE) tE) tE) (ndiv K (nofZ K 1) (nofZ K 6)) in
  fap (V * W) 53 (nsub K (ad_length p) (if nltb K (ad_vStart p) (ad_vEnd p) then nsub K (nmul K (ad_vEnd p) tE) c else nadd K (nmul K (ad_vEnd p) tE) c)) (r_s r (Rmin t T)).
Proof.
  intros Ft Pt F0 HE B2 tE c. destruct (cl_d12 _ _ _ _ _ C) as (x2 & F2 & E2).
  destruct (cl_dur _ _ _ _ _ C) as (y0' & F0' & E0).
  assert (y0' = y0) as ->.
  { apply fin_float32 in F0, F0'. destruct F0 as (_ & F0), F0' as (_ & F0'). congruence. }
  pose proof (id_d1 _ _ _ _ I) as D1. destruct (d1_half _ _ _ _ I) as (DH & DT).
  assert (TD : T - (r_d1 r + r_d2 r) = r_d1 r) by (rewrite <- (id_T _ _ _ _ I); unfold r_T; ring).
  destruct SVT as (S1 & S2 & S3 & S4 & S5 & S6 & S7). destruct V01 as (_ & V1).
  rewrite (K_ltb X _ _ _ _ F2 Ft) in B2. apply ltb_lt in B2. apply Rabs_def3 in E0, E2.
  assert (ET : 0 < eps * T) by (apply Rmult_lt_0_compat; auto).
  assert (EW : eps * T <= eps * W) by (apply Rmult_le_compat_l; lra).
  assert (ES : eps * T <= / 10000000 * T) by (unfold eps; lra).
  assert (EWS : eps * W <= / 10000000 * W) by (unfold eps; lra).
  (* the bound on the argument *)
  pose (M := Rmax (101/100 * r_d1 r) (Rmax (/ 1024 * T) (5 * (eps * W)))).
  assert (MM : 101/100 * r_d1 r <= M /\ / 1024 * T <= M /\ 5 * (eps * W) <= M /\ M <= 3/5 * W /\ j * M * M <= 11/10 * V).
  { unfold M, Rmax. destruct (Rle_dec (/ 1024 * T) (5 * (eps * W))) as [|].
    - destruct (Rle_dec (101/100 * r_d1 r) (5 * (eps * W))) as [|]; repeat (split; [lra|]); apply jM; lra.
    - destruct (Rle_dec (101/100 * r_d1 r) (/ 1024 * T)) as [|]; repeat (split; [lra|]); apply jM; lra. }
  destruct MM as (M1 & M2 & M3 & M4 & M5). clearbody M.
  destruct (good_M M) as (Q1 & Q2 & Q3 & Q4 & Q5 & Q6); [lra|].
  assert (PM : 0 < M) by lra.
  (* the argument *)
  assert (BE : - (9/2 * (eps * W)) <= y0 - t <= r_d1 r + (17 + 25/2) * (eps * T)) by lra.
  assert (BE2 : Rabs (y0 - t) <= 2 * M).
  { apply abs_le. lra. }
  pose proof (rnd_err (y0 - t)) as RE. set (y := rnd (y0 - t)) in *.
  assert (Fy : fin32 tE y).
  { apply (fin_sub _ _ prec24 max24); auto. apply small_huge. unfold highest. lra. }
  assert (HETA : eta <= / 256 * (eps * T)) by (apply eta_le; auto).
  assert (RE2 : Rabs (y - (y0 - t)) <= 9/8 * (eps * W) /\ Rabs (y - (y0 - t)) <= 9/4 * (eps * M)).
  { split.
    - eapply Rle_trans; [exact RE|]. assert (Rabs (y0 - t) <= 11/10 * W).
      { apply abs_le. lra. }
      assert (eps * Rabs (y0 - t) <= eps * (11/10 * W)) by (apply Rmult_le_compat_l; lra). lra.
    - eapply Rle_trans; [exact RE|]. assert (eps * Rabs (y0 - t) <= eps * (2 * M)) by (apply Rmult_le_compat_l; lra).
      assert (eta <= / 4 * (eps * M)); [|lra]. unfold eta, eps in *. lra. }
  destruct RE2 as (RE2 & RE3). apply Rabs_def3 in RE2, RE3.
  assert (EM : eps * M <= / 10000000 * M) by (unfold eps; lra).
  assert (BY : Rabs y <= M).
  { apply abs_le. destruct (id_order _ _ _ _ I) as [Z|(O & _)]; [rewrite Z in *|]; lra. }
  set (u := Rmin t T). set (z := T - u).
  assert (Z0 : 0 <= z /\ z <= r_d1 r + 25/2 * (eps * T) /\ Rabs (y - z) <= 73/4 * (eps * W)).
  { unfold z, u, Rmin. destruct (Rle_dec t T); (split; [lra|split; [lra|apply abs_le; lra]]). }
  destruct Z0 as (Z0 & Z1 & Z2).
  assert (BZ : Rabs z <= M). { apply abs_le. destruct (id_order _ _ _ _ I) as [Z|(O & _)]; [rewrite Z in *|]; lra. }
  destruct (poly_fap (ad_jMax p) tE (ad_vEnd p) j y (r_v1 r) M V) as (R1 & R2); auto.
  { apply (cl_j _ _ _ _ _ C). } { apply (cl_v1 _ _ _ _ _ C). }
  fold c in R1, R2.
  set (g := fun y => r_v1 r * y - r_J r * y * y * y * (1/6)).
  assert (H1 : fap (V * W) (12/5 + 73/4) (if nltb K (ad_vStart p) (ad_vEnd p) then nsub K (nmul K (ad_vEnd p) tE) c else nadd K (nmul K (ad_vEnd p) tE) c) (g z)).
  { apply fap_moved with (r := g y).
    - apply fap_weak with (B := V * M) (k := 4).
      + rewrite (K_ltb X _ _ _ _ (cl_v0 _ _ _ _ _ C) (cl_v1 _ _ _ _ _ C)). unfold g.
        destruct (id_dir _ _ _ _ I) as [(E3 & E4 & E5 & _)|(E3 & E4 & E5 & _)].
        * rewrite E3, E5, E4 in *. rewrite Raux.Rlt_bool_true by lra. exact R2.
        * rewrite E3, E5, E4 in *. rewrite Raux.Rlt_bool_false by lra. eapply fap_eq; [exact R1|]. ring.
      + assert (V * M <= V * (3/5 * W)) by (apply Rmult_le_compat_l; lra). lra.
    - eapply Rle_trans; [apply (lip3 y z M); auto|]. replace (73/4 * (eps * (V * W))) with (V * (73/4 * (eps * W))) by ring.
      apply Rmult_le_compat_l; lra. }
  assert (BG : Rabs (g z) <= V * M).
  { pose proof (lip3 z 0 M BZ) as L. unfold g. replace (r_v1 r * z - r_J r * z * z * z * (1/6)) with
      (r_v1 r * z - r_J r * z * z * z * (1 / 6) - (r_v1 r * 0 - r_J r * 0 * 0 * 0 * (1 / 6))) by field.
    eapply Rle_trans; [apply L; auto; rewrite Rabs_R0; lra|]. apply Rmult_le_compat_l; [lra|]. rewrite Rminus_0_r. auto. }
  assert (EL : r_L r = 1/2 * (V * T)).
  { unfold r_L. rewrite (id_T _ _ _ _ I). destruct (id_dir _ _ _ _ I) as [(-> & -> & _)|(-> & -> & _)]; field. }
  assert (VMW : V * M <= 3/5 * (V * W)). { replace (3/5 * (V * W)) with (V * (3/5 * W)) by ring. apply Rmult_le_compat_l; lra. }
  assert (SW : scl (11/10 * V * W)). { apply (scl_mul (11/10 * V) W (11/10 * / 65536) (11/10 * 2097152) (/ 68719476736) 35184372088832); unfold lowest, highest; lra. }
  assert (H2 : fap (11/10 * V * W) 30 (nsub K (ad_length p) (if nltb K (ad_vStart p) (ad_vEnd p) then nsub K (nmul K (ad_vEnd p) tE) c else nadd K (nmul K (ad_vEnd p) tE) c)) (r_L r - g z)).
  { eapply fap_weak; [apply (fap_sub X (11/10 * V * W) (100/11) (413/22))|]; auto; try lra.
    - eapply fap_weak; [apply (cl_len _ _ _ _ _ C)|]. lra.
    - eapply fap_weak; [exact H1|]. lra.
    - apply Rabs_def3 in BG. apply abs_le. rewrite EL. lra. }
  eapply fap_weak; [eapply fap_moved; [exact H2|]|].
  - replace (r_L r - g z) with (P3 r u). 2: { unfold P3, g. rewrite (id_T _ _ _ _ I). reflexivity. }
    eapply Rle_trans; [apply (near_P3 _ _ _ _ I); auto|].
    + unfold z in Z1. lra.
    + instantiate (1 := 1). replace (1 * (eps * (11/10 * V * W))) with (11/10 * (eps * (V * W))) by ring.
      assert (eps * (V * T) <= eps * (V * W)) by (apply Rmult_le_compat_l; lra). assert (0 < eps * (V * T)) by (apply Rmult_lt_0_compat; lra). lra.
  - lra.
Qed.

Theorem ramp_near tf t y0 : fin32 tf t -> 0 <= t -> fin32 (ad_duration p) y0 -> t <= y0 + 9/2 * (eps * W) ->
  fap (V * W) 53 (ad_s K p tf) (r_s r (Rmin t T)).
Proof.
  intros Ft Pt F0 H. unfold ad_s. destruct (nltb K tf (ad_d1d3 p)) eqn:B1.
  - pose proof (eval1 tf t Ft Pt B1) as E. cbv zeta in E. destruct (nltb K (ad_vStart p) (ad_vEnd p)); exact E.
  - destruct (nltb K (nadd K (ad_d1d3 p) (ad_d2 p)) tf) eqn:B2.
    + pose proof (eval3 tf t y0 Ft Pt F0 H B2) as E. cbv zeta in E. destruct (nltb K (ad_vStart p) (ad_vEnd p)); exact E.
    + pose proof (eval2 tf t Ft Pt B1 B2) as E. cbv zeta in E. destruct (nltb K (ad_vStart p) (ad_vEnd p)); exact E.
Qed.
End Eval.
End Ramp.
