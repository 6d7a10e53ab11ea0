(** binary32: a planned motion from standstill to standstill stays close to an exact one. *)
Require Import List Arith NArith ZArith Bool Reals Lra Lia.
From Coq Require Import Floats.SpecFloat.
From Verif Require Import Base Num NumR NumSF MotionModel CtrlModel ProfileSpec ProfileProofs PlanProofs FloatSpec FloatProofs FloatClockProofs FloatErrProofs FloatRampProofs FloatCalcProofs.
Open Scope R_scope.

Lemma rnd_W W x : scl W -> Rabs x <= W -> Rabs (rnd x - x) <= 101/100 * (eps * W).
Proof.
  intros S H. eapply Rle_trans; [apply rnd_err|]. pose proof (eta_le W S). assert (eps * Rabs x <= eps * W) by (apply Rmult_le_compat_l; [unfold eps; lra|auto]). 
  pose proof (scl_pos W S). assert (0 < eps * W) by (apply Rmult_lt_0_compat; auto; unfold eps; lra). lra.
Qed.
Lemma leb_le x y : Raux.Rle_bool x y = true -> x <= y.
Proof. unfold Raux.Rle_bool. destruct (Raux.Rcompare_spec x y); try discriminate; lra. Qed.
Lemma leb_gt x y : Raux.Rle_bool x y = false -> y < x.
Proof. unfold Raux.Rle_bool. destruct (Raux.Rcompare_spec x y); try discriminate; auto. Qed.

Section Plan.
Variable X : sf_funs.
Notation K := (aF (sf_arith X)).

Section Phases.
Variables (V L T1 T3 j a d : R) (o : profileOrder) (r1 r3 : ramp) (q : profile sf) (Vf lenf : sf).
Hypothesis HV : / 65536 <= V <= 2097152.
Hypothesis HL : plain L.
Hypothesis Ha : 0 < a. Hypothesis Hd : d < 0. Hypothesis Pj : 0 < j.
Hypothesis HT1 : / 68719476736 <= T1. Hypothesis HT3 : / 68719476736 <= T3.
Hypothesis I1 : ideal V T1 j r1. Hypothesis I3 : ideal V T3 j r3.
Hypothesis C1 : close X V T1 j r1 (p_left q). Hypothesis C3 : close X V T3 j r3 (p_right q).
Hypothesis G1 : r_good o 0 V a d j r1. Hypothesis G3 : r_good o V 0 a d j r3.
Hypothesis FV : fin32 Vf V. Hypothesis FL : fin32 lenf L.
Hypothesis Q1 : p_doneLength q = nofZ K 0. Hypothesis Q2 : p_doneDuration q = nofZ K 0.
Let sum := nadd K (ad_length (p_left q)) (ad_length (p_right q)).
Let midf := nsub K (nsub K lenf (nofZ K 0)) sum.
Hypothesis Q3 : p_mid q = mkCR Vf midf (ndiv K midf Vf).
Hypothesis Q4 : p_duration q = nadd K (nadd K (nadd K (nofZ K 0) (ad_duration (p_left q))) (ndiv K midf Vf)) (ad_duration (p_right q)).
Hypothesis HS : V * T1 / 2 + V * T3 / 2 <= L + 15 * (eps * L) \/ (nltb K (nsub K lenf (nofZ K 0)) sum = false /\ V * T1 / 2 + V * T3 / 2 <= 2 * L).
Hypothesis HX : j * L * L <= 1099511627776 * (V * V * V).

Let PE : 0 < eps. Proof. unfold eps. lra. Qed.
Let PV : 0 < V. Proof. lra. Qed.
Let PL : 0 < L. Proof. unfold plain in HL. lra. Qed.
Let tau := L / V.
Let Ptau : 0 < tau. Proof. apply Rdiv_lt_0_compat; auto. Qed.
Let EL : V * tau = L. Proof. unfold tau. field. lra. Qed.
Let P1 : 0 < V * T1. Proof. apply Rmult_lt_0_compat; lra. Qed.
Let P3 : 0 < V * T3. Proof. apply Rmult_lt_0_compat; lra. Qed.
Let E := eps * L.
Let PEL : 0 < E. Proof. apply Rmult_lt_0_compat; auto. Qed.
Let EsL : E <= / 10000000 * L. Proof. unfold E, eps. pose proof PL. lra. Qed.
Let rtau : / 68719476736 <= 2 * tau <= 137438953472.
Proof. unfold plain in HL. split; apply Rmult_le_reg_l with V; auto; replace (V * (2 * tau)) with (2 * (V * tau)) by ring; rewrite EL; lra. Qed.

Let L1 : r_L r1 = V * T1 / 2.
Proof. unfold r_L. rewrite (id_T _ _ _ _ I1). destruct G1 as (-> & -> & _). field. Qed.
Let L3 : r_L r3 = V * T3 / 2.
Proof. unfold r_L. rewrite (id_T _ _ _ _ I3). destruct G3 as (-> & -> & _). field. Qed.

(** the computed lengths *)
Let lens : exists xl xr s m md, fin32 (ad_length (p_left q)) xl /\ fin32 (ad_length (p_right q)) xr /\ fin32 sum s /\ fin32 midf m /\ fin32 (ndiv K midf Vf) md /\
  Rabs (xl - V * T1 / 2) <= 10 * (eps * (V * T1)) /\ Rabs (xr - V * T3 / 2) <= 10 * (eps * (V * T3)) /\
  V * T1 + V * T3 <= 2 * L + 48 * E /\
  Rabs (m - (L - (V * T1 / 2 + V * T3 / 2))) <= 23 * E /\
  Rabs (m - Rmax 0 (L - (V * T1 / 2 + V * T3 / 2))) <= 38 * E /\
  Rabs (md - Rmax 0 (L - (V * T1 / 2 + V * T3 / 2)) / V) <= 79/2 * (eps * tau).
Proof.
  pose proof (cl_len _ _ _ _ _ _ C1) as H1. pose proof (cl_len _ _ _ _ _ _ C3) as H3. rewrite L1 in H1. rewrite L3 in H3.
  destruct H1 as (xl & Fl & El). destruct H3 as (xr & Fr & Er).
  assert (SC : scl (2 * L) /\ scl (2 * tau)). { unfold plain, scl, lowest, highest in *. lra. }
  destruct SC as (SL & ST).
  pose proof (Rabs_def3 _ _ El) as El'. pose proof (Rabs_def3 _ _ Er) as Er'.
  assert (A0 : V * T1 + V * T3 <= 4 * L + 48 * E). { destruct HS as [H|(_ & H)]; [fold E in H|]; lra. }
  set (A := V * T1 + V * T3) in *.
  assert (EA : eps * (V * T1) + eps * (V * T3) = eps * A) by (unfold A; ring).
  assert (PA0 : 0 < A) by (unfold A; lra).
  assert (EA2 : eps * A <= / 10000000 * A) by (unfold eps; lra).
  assert (PA : 0 < eps * A) by (apply Rmult_lt_0_compat; [auto|unfold A; lra]).
  assert (BX : Rabs (xl + xr) <= A). { apply abs_le. unfold A in *. lra. }
  pose proof (rnd_err (xl + xr)) as RE. set (s := rnd (xl + xr)) in *.
  assert (Fs : fin32 sum s). { apply (fin_add _ _ prec24 max24); auto. apply small_huge. unfold plain, highest in *. lra. }
  assert (HE : eta <= / 256 * E). { unfold plain in HL. unfold E, eta, eps. lra. }
  assert (RS : Rabs (s - A / 2) <= 10 * (eps * A) + (1/2 * (eps * A) + 10 * eps * (eps * A)) + eta).
  { assert (Rabs (xl + xr) <= A / 2 + 10 * (eps * A)) by (apply abs_le; unfold A in *; lra).
    assert (eps * Rabs (xl + xr) <= eps * (A / 2 + 10 * (eps * A))) by (apply Rmult_le_compat_l; lra).
    apply Rabs_def3 in RE. apply abs_le. unfold A in *. lra. }
  assert (EE : eps * (eps * A) <= / 10000000 * (eps * A)) by (unfold eps in *; lra).
  pose proof (Rabs_def3 _ _ RS) as RS'.
  (* the bound on the ramps *)
  assert (FLs : fin32 (nsub K lenf (nofZ K 0)) L) by now apply sub_0_r.
  assert (A1 : A <= 2 * L + 48 * E /\ (A / 2 <= L + 15 * E \/ s <= L)).
  { destruct HS as [H|(H & _)]; [fold E in H; unfold A; split; [lra|left; lra]|].
    rewrite (K_ltb X _ _ _ _ FLs Fs) in H. apply ltb_ge in H. split; [|right; auto].
    assert (eps * A <= 5 * E) by (unfold E; rewrite <- Rmult_assoc, (Rmult_comm 5), Rmult_assoc; apply Rmult_le_compat_l; lra).
    assert (A <= 2 * L + L / 1000) by lra.
    assert (eps * A <= 2001/1000 * E) by (unfold E; rewrite <- Rmult_assoc, (Rmult_comm (2001/1000)), Rmult_assoc; apply Rmult_le_compat_l; lra). lra. }
  destruct A1 as (A1 & A2).
  assert (EA3 : eps * A <= 201/100 * E).
  { apply Rle_trans with (eps * (201/100 * L)); [apply Rmult_le_compat_l; lra|unfold E; lra]. }
  assert (B1 : Rabs (L - s) <= 11/10 * L) by (apply abs_le; unfold A in *; lra).
  pose proof (rnd_err (L - s)) as RM. set (m := rnd (L - s)) in *.
  assert (Fm : fin32 midf m). { apply (fin_sub _ _ prec24 max24); auto. apply small_huge. unfold plain, highest in *. lra. }
  assert (RM2 : Rabs (m - (L - s)) <= 12/10 * E).
  { eapply Rle_trans; [exact RM|]. assert (eps * Rabs (L - s) <= eps * (11/10 * L)) by (apply Rmult_le_compat_l; lra). replace (eps * (11/10 * L)) with (11/10 * E) in * by (unfold E; ring). lra. }
  pose proof (Rabs_def3 _ _ RM2) as RM2'.
  replace (V * T1 / 2 + V * T3 / 2) with (A / 2) in * by (unfold A; field).
  assert (M1 : Rabs (m - (L - A / 2)) <= 23 * E) by (apply abs_le; lra).
  assert (M2 : Rabs (m - Rmax 0 (L - A / 2)) <= 38 * E).
  { apply Rabs_def3 in M1. apply abs_le. unfold Rmax. destruct (Rle_dec 0 (L - A / 2)); [lra|]. destruct A2 as [A2|A2]; [lra|].
    assert (0 <= m). { rewrite <- rnd_0. apply rnd_mono. lra. } lra. }
  assert (B2 : Rabs (m / V) <= 2 * tau).
  { apply Rabs_def3 in M2. apply abs_le. assert (MX : 0 <= Rmax 0 (L - A / 2) <= L). { split; [apply Rmax_l|apply Rmax_lub; unfold A in *; lra]. }
    split; apply Rmult_le_reg_l with V; auto; replace (V * (m / V)) with m by (field; lra).
    - replace (V * - (2 * tau)) with (- (2 * (V * tau))) by ring. rewrite EL. lra.
    - replace (V * (2 * tau)) with (2 * (V * tau)) by ring. rewrite EL. lra. }
  pose proof (rnd_err (m / V)) as RD. set (md := rnd (m / V)) in *.
  assert (Fd : fin32 (ndiv K midf Vf) md). { apply (fin_div _ _ prec24 max24); auto; [lra|]. apply small_huge. unfold highest. lra. }
  exists xl, xr, s, m, md. repeat (split; [assumption|]).
  assert (B3 : Rabs (m / V) <= 11/10 * tau).
  { apply Rabs_def3 in M2. apply abs_le. assert (MX : 0 <= Rmax 0 (L - A / 2) <= L). { split; [apply Rmax_l|apply Rmax_lub; unfold A in *; lra]. }
    split; apply Rmult_le_reg_l with V; auto; replace (V * (m / V)) with m by (field; lra).
    - replace (V * - (11/10 * tau)) with (- (11/10 * (V * tau))) by ring. rewrite EL. lra.
    - replace (V * (11/10 * tau)) with (11/10 * (V * tau)) by ring. rewrite EL. lra. }
  assert (N : Rabs (m / V - Rmax 0 (L - A / 2) / V) <= 38 * (eps * tau)).
  { replace (m / V - Rmax 0 (L - A / 2) / V) with ((m - Rmax 0 (L - A / 2)) * / V) by (field; lra).
    rewrite Rabs_mult, (Rabs_pos_eq (/ V)) by (apply Rlt_le, Rinv_0_lt_compat; auto).
    apply Rle_trans with (38 * E * / V); [apply Rmult_le_compat_r; [apply Rlt_le, Rinv_0_lt_compat; auto|auto]|].
    unfold E, tau. apply Req_le. field. lra. }
  replace (md - Rmax 0 (L - A / 2) / V) with ((md - m / V) + (m / V - Rmax 0 (L - A / 2) / V)) by ring.
  replace (79/2 * (eps * tau)) with (3/2 * (eps * tau) + 38 * (eps * tau)) by lra. apply Rabs_sum; auto.
  eapply Rle_trans; [exact RD|]. assert (eps * Rabs (m / V) <= eps * (11/10 * tau)) by (apply Rmult_le_compat_l; lra).
  pose proof (eta_le _ ST). assert (0 < eps * tau) by (apply Rmult_lt_0_compat; auto). lra.
Qed.

Let T2 := Rmax 0 (L - (V * T1 / 2 + V * T3 / 2)) / V.
Let T := T1 + T2 + T3.
Let VT2 : V * T2 = Rmax 0 (L - (V * T1 / 2 + V * T3 / 2)). Proof. unfold T2. field. lra. Qed.
Let PT2 : 0 <= T2.
Proof. apply Rmult_le_reg_l with V; auto. rewrite VT2, Rmult_0_r. apply Rmax_l. Qed.

Let ph := ph_s V 0 0 T2 r1 r3.
Let Rs1 : ramp_spec o 0 V a d j T1 (r_L r1) (r_s r1) (r_v r1) (r_a r1).
Proof. rewrite <- (id_T _ _ _ _ I1). apply r_spec; auto; lra. Qed.
Let Rs3 : ramp_spec o V 0 a d j T3 (r_L r3) (r_s r3) (r_v r3) (r_a r3).
Proof. rewrite <- (id_T _ _ _ _ I3). apply r_spec; auto; lra. Qed.
Let plan vm : V <= vm -> plan_spec 0 0 a d vm 0 0 T (V * T1 / 2 + V * T2 + V * T3 / 2) ph (ph_v V 0 T2 r1 r3) (ph_a 0 T2 r1 r3).
Proof.
  intro H. pose proof (ph_plan o 0 V 0 a d j 0 0 T2 r1 r3 ltac:(lra) ltac:(lra) ltac:(lra) Ha Hd Pj G1 G3 PT2 vm) as P.
  rewrite L1, L3, (id_T _ _ _ _ I1), (id_T _ _ _ _ I3) in P.
  replace (0 + T1 + T2 + T3) with T in P by (unfold T; ring).
  replace (0 + V * T1 / 2 + V * T2 + V * T3 / 2) with (V * T1 / 2 + V * T2 + V * T3 / 2) in P by ring.
  apply P. repeat apply Rmax_lub; lra.
Qed.
Let ph_mono u w : 0 <= u <= w -> w <= T -> 0 <= ph w - ph u <= V * (w - u).
Proof.
  intros Hu Hw. pose proof (plan V ltac:(lra)) as P.
  destruct (lip ph (ph_v V 0 T2 r1 r3) V 0 u w) as (B1 & B2); [lra| | | |].
  - intros t Ht. apply (ps_speed _ _ _ _ _ _ _ _ _ _ _ _ P). lra.
  - intros t Ht. apply (ps_scont _ _ _ _ _ _ _ _ _ _ _ _ P). lra.
  - intros t Ht. apply (ps_vbound _ _ _ _ _ _ _ _ _ _ _ _ P). lra.
  - lra.
Qed.
Let ph_lip x y : 0 <= x <= T -> 0 <= y <= T -> Rabs (ph x - ph y) <= V * Rabs (x - y).
Proof.
  assert (G : forall x y, 0 <= x <= y -> y <= T -> Rabs (ph y - ph x) <= V * (y - x)).
  { intros u w Hu Hw. pose proof (ph_mono u w Hu Hw). apply abs_le. lra. }
  intros Hx Hy. destruct (Rle_dec x y).
  - rewrite Rabs_minus_sym, (Rabs_minus_sym x), (Rabs_pos_eq (y - x)) by lra. apply G; lra.
  - rewrite (Rabs_pos_eq (x - y)) by lra. apply G; lra.
Qed.
Let ph1 x : 0 <= x <= T1 -> ph x = r_s r1 x.
Proof.
  intro H. unfold ph, ph_s. rewrite rleb_if. destruct (Rle_dec x 0).
  - assert (x = 0) as -> by lra. symmetry. apply (rs_start _ _ _ _ _ _ _ _ _ _ _ Rs1).
  - rewrite rleb_if, (id_T _ _ _ _ I1), Rminus_0_r. destruct (Rle_dec x T1); [ring|lra].
Qed.
Let ph2 x : 0 <= x <= T2 -> ph (T1 + x) = V * T1 / 2 + V * x.
Proof.
  intro H. destruct (Req_EM_T x 0) as [->|].
  - rewrite !Rplus_0_r, Rmult_0_r, ph1, Rplus_0_r, <- L1 by lra. apply (rs_end _ _ _ _ _ _ _ _ _ _ _ Rs1).
  - unfold ph, ph_s. rewrite !rleb_if, (id_T _ _ _ _ I1), L1. destruct (Rle_dec (T1 + x) 0); [lra|].
    destruct (Rle_dec (T1 + x - 0) T1); [lra|]. destruct (Rle_dec (T1 + x - 0 - T1) T2); [ring|lra].
Qed.
Let ph3 x : 0 <= x <= T3 -> ph (T1 + T2 + x) = V * T1 / 2 + V * T2 + r_s r3 x.
Proof.
  intro H. destruct (Req_EM_T x 0) as [->|].
  - rewrite Rplus_0_r, ph2 by lra. destruct (rs_start _ _ _ _ _ _ _ _ _ _ _ Rs3) as (-> & _). ring.
  - unfold ph, ph_s. rewrite !rleb_if, (id_T _ _ _ _ I1), L1. destruct (Rle_dec (T1 + T2 + x) 0); [lra|].
    destruct (Rle_dec (T1 + T2 + x - 0) T1); [lra|]. destruct (Rle_dec (T1 + T2 + x - 0 - T1) T2); [lra|].
    replace (T1 + T2 + x - 0 - T1 - T2) with x by ring. ring.
Qed.

Let W := 2001/1000 * tau.
Let SW : scl W. Proof. unfold scl, W, lowest, highest. lra. Qed.
Let e := eps * tau.
Let Pe : 0 < e. Proof. apply Rmult_lt_0_compat; auto. Qed.
Let es : e <= / 10000000 * tau. Proof. unfold e, eps. pose proof Ptau. lra. Qed.
Let Ve : V * e = E. Proof. unfold e, E. rewrite <- EL. ring. Qed.
Let eW : eps * W = 2001/1000 * e. Proof. unfold e, W. ring. Qed.

(** the computed durations *)
Let durs : exists xl m md dl dr Tf, fin32 (ad_length (p_left q)) xl /\ fin32 midf m /\ fin32 (ndiv K midf Vf) md /\
  fin32 (ad_duration (p_left q)) dl /\ fin32 (ad_duration (p_right q)) dr /\ fin32 (p_duration q) Tf /\
  Rabs (xl - V * T1 / 2) <= 10 * (eps * (V * T1)) /\ Rabs (m - V * T2) <= 38 * E /\ Rabs (md - T2) <= 79/2 * e /\
  Rabs (dl - T1) <= 17 * (eps * T1) /\ Rabs (dr - T3) <= 17 * (eps * T3) /\
  T1 + T3 <= 2 * tau + 48 * e /\ tau <= T <= 2 * tau + 48 * e /\ eps * T1 + eps * T3 <= 201/100 * e /\
  V * T1 / 2 + V * T3 / 2 <= L + 24 * E /\
  Rabs (Tf - (dl + md + dr)) <= 202/100 * (eps * W).
Proof.
  destruct lens as (xl & xr & s & m & md & Fl & Fr & Fs & Fm & Fd & El & Er & A1 & M1 & M2 & D).
  fold T2 in D. rewrite <- VT2 in M2. fold e in D.
  destruct (cl_dur _ _ _ _ _ _ C1) as (dl & Fdl & Edl). destruct (cl_dur _ _ _ _ _ _ C3) as (dr & Fdr & Edr).
  assert (A2 : T1 + T3 <= 2 * tau + 48 * e).
  { apply Rmult_le_reg_l with V; auto. replace (V * (2 * tau + 48 * e)) with (2 * (V * tau) + 48 * (V * e)) by ring. rewrite EL, Ve. lra. }
  assert (A3 : tau <= T <= 2 * tau + 48 * e).
  { assert (V * T = V * T1 + Rmax 0 (L - (V * T1 / 2 + V * T3 / 2)) + V * T3) by (rewrite <- VT2; unfold T; ring).
    split; apply Rmult_le_reg_l with V; auto.
    - rewrite EL, H. unfold Rmax. destruct (Rle_dec 0 (L - (V * T1 / 2 + V * T3 / 2))); lra.
    - replace (V * (2 * tau + 48 * e)) with (2 * (V * tau) + 48 * (V * e)) by ring. rewrite EL, Ve, H.
      unfold Rmax. destruct (Rle_dec 0 (L - (V * T1 / 2 + V * T3 / 2))); lra. }
  assert (A4 : eps * T1 + eps * T3 <= 201/100 * e).
  { rewrite <- Rmult_plus_distr_l. unfold e. replace (201/100 * (eps * tau)) with (eps * (201/100 * tau)) by ring. apply Rmult_le_compat_l; lra. }
  assert (PT1 : 0 < eps * T1) by (apply Rmult_lt_0_compat; lra). assert (PT3 : 0 < eps * T3) by (apply Rmult_lt_0_compat; lra).
  pose proof (Rabs_def3 _ _ D) as D'. pose proof (Rabs_def3 _ _ Edl) as Edl'. pose proof (Rabs_def3 _ _ Edr) as Edr'.
  assert (B1 : Rabs (dl + md) <= W) by (apply abs_le; unfold W, T in *; lra).
  pose proof (rnd_W W _ SW B1) as R1. pose proof (Rabs_def3 _ _ R1) as R1'.
  assert (B2 : Rabs (rnd (dl + md) + dr) <= W) by (apply abs_le; rewrite eW in *; unfold W, T in *; lra).
  pose proof (rnd_W W _ SW B2) as R2. pose proof (Rabs_def3 _ _ R2) as R2'.
  assert (HW : W <= highest) by apply SW.
  exists xl, m, md, dl, dr, (rnd (rnd (dl + md) + dr)). repeat (split; [assumption|]). split.
  { rewrite Q4. apply (fin_add _ _ prec24 max24); auto; [apply (fin_add _ _ prec24 max24); auto|].
    - now apply add_0_l.
    - apply small_huge. pose proof (Rabs_pos (dl + md)). lra.
    - apply small_huge. pose proof (Rabs_pos (rnd (dl + md) + dr)). lra. }
  repeat (split; [assumption|]). split; [lra|]. apply abs_le. lra.
Qed.

Theorem phases_near : exists Tf, fin32 (p_duration q) Tf /\ Rabs (Tf - T) <= 80 * (eps * T) /\
  Rabs (V * T1 / 2 + V * T2 + V * T3 / 2 - L) <= 24 * (eps * L) /\
  forall tf t, fin32 tf t -> 0 <= t <= Tf -> fap L 256 (p_s K q tf) (ph (Rmin t T)).
Proof.
  destruct durs as (xl & m & md & dl & dr & Tf & Fl & Fm & Fmd & Fdl & Fdr & Ff & El & Em & Emd & Edl & Edr & A2 & A3 & A4 & A5 & EF).
  exists Tf. split; auto.
  assert (PT1 : 0 < eps * T1) by (apply Rmult_lt_0_compat; lra). assert (PT3 : 0 < eps * T3) by (apply Rmult_lt_0_compat; lra).
  pose proof (Rabs_def3 _ _ El) as El'. pose proof (Rabs_def3 _ _ Em) as Em'. pose proof (Rabs_def3 _ _ Emd) as Emd'.
  pose proof (Rabs_def3 _ _ Edl) as Edl'. pose proof (Rabs_def3 _ _ Edr) as Edr'. pose proof (Rabs_def3 _ _ EF) as EF'.
  rewrite eW in EF'.
  assert (PTT : 0 < T) by lra.
  assert (e1s : eps * T1 <= / 10000000 * T1) by (apply Rmult_le_compat_r; [lra|unfold eps; lra]).
  assert (eT : e <= eps * T) by (apply Rmult_le_compat_l; lra).
  split. { apply abs_le. unfold T in *. lra. }
  split. { fold E. rewrite VT2. apply abs_le. unfold Rmax. destruct (Rle_dec 0 (L - (V * T1 / 2 + V * T3 / 2))); lra. }
  assert (Z : fin32 (nofZ K 0) 0) by (apply (fin_lit X 0); lia).
  assert (EVT1 : V * (eps * T1) <= 201/100 * E).
  { apply Rle_trans with (V * (201/100 * e)); [apply Rmult_le_compat_l; lra|]. replace (V * (201/100 * e)) with (201/100 * (V * e)) by ring. rewrite Ve. lra. }
  assert (EVT3 : V * (eps * T1) + V * (eps * T3) <= 201/100 * E).
  { apply Rle_trans with (V * (201/100 * e)); [rewrite <- Rmult_plus_distr_l; apply Rmult_le_compat_l; lra|]. replace (V * (201/100 * e)) with (201/100 * (V * e)) by ring. rewrite Ve. lra. }
  replace (eps * (V * T1)) with (V * (eps * T1)) in * by ring.
  assert (HE : eta <= / 256 * E). { unfold plain in HL. unfold E, eta, eps. lra. }
  assert (HB : 3 * L <= highest) by (unfold plain, highest in *; lra).
  intros tf t Ft Ht. unfold p_s. rewrite Q1, Q2, Q3. cbn [cr_length cr_duration]. unfold cr_s. cbn [cr_vMid].
  rewrite (K_leb X _ _ _ _ Ft Z). destruct (Raux.Rle_bool t 0) eqn:B0.
  { apply leb_le in B0. assert (t = 0) as -> by lra. rewrite Rmin_left by lra. rewrite ph1 by lra.
    destruct (rs_start _ _ _ _ _ _ _ _ _ _ _ Rs1) as (-> & _). eapply fap_weak; [apply (fap_exact L); [lra|exact Z]|lra]. }
  apply leb_gt in B0.
  assert (F1 : fin32 (nsub K tf (nofZ K 0)) t) by now apply sub_0_r. set (t1f := nsub K tf (nofZ K 0)) in *.
  set (u := Rmin t T). assert (U : 0 <= u <= T) by (unfold u, Rmin; destruct (Rle_dec t T); lra).
  assert (near : forall w x y, 0 <= w <= T -> Rabs (w - t) <= y * e -> Rabs (x - ph w) <= (256 - y) * E -> Rabs (x - ph u) <= 256 * (eps * L)).
  { intros w x y Hw B1 B2. replace (x - ph u) with ((x - ph w) + (ph w - ph u)) by ring.
    replace (256 * (eps * L)) with ((256 - y) * E + V * (y * e)) by (replace (V * (y * e)) with (y * (V * e)) by ring; rewrite Ve; unfold E; ring).
    apply Rabs_sum; auto. eapply Rle_trans; [apply ph_lip; auto|]. apply Rmult_le_compat_l; [lra|].
    eapply Rle_trans; [|exact B1]. unfold u, Rmin. destruct (Rle_dec t T); [lra|].
    rewrite !(Rabs_minus_sym w), !Rabs_pos_eq; lra. }
  rewrite (K_leb X _ _ _ _ F1 Fdl). destruct (Raux.Rle_bool t dl) eqn:B1.
  { (* first ramp *)
    apply leb_le in B1. 
    assert (R1 : fap (V * T1) 53 (ad_s K (p_left q) t1f) (r_s r1 (Rmin t T1))).
    { apply (ramp_near X V T1 T1 j r1 (p_left q) I1 C1 Pj HV HT1) with (y0 := dl); auto.
      - lra.
      - pose proof (id_j _ _ _ _ I1). apply Rle_trans with (25 * (eps * eps) * (1048576 * V)); [apply Rmult_le_compat_l; [apply Rmult_le_pos; [lra|apply Rmult_le_pos; lra]|auto]|]. unfold eps. lra.
      - lra.
      - lra. }
    apply (fap_add_0 X) in R1. destruct R1 as (x & Fx & Ex). exists x. split; auto.
    assert (WM : 0 <= Rmin t T1 <= T1 /\ Rabs (Rmin t T1 - t) <= 17 * (eps * T1)).
    { unfold Rmin. destruct (Rle_dec t T1); (split; [lra|]); apply abs_le; lra. }
    destruct WM as (WM & WD).
    apply (near (Rmin t T1) x (17 * (201/100))).
    - unfold T. lra.
    - lra.
    - rewrite ph1 by auto. eapply Rle_trans; [exact Ex|]. replace (eps * (V * T1)) with (V * (eps * T1)) by ring. lra. }
  apply leb_gt in B1.
  assert (BW : t <= W). { rewrite ?eW in *. unfold W, T in *. lra. }
  assert (B2 : Rabs (t - dl) <= W) by (apply abs_le; lra).
  pose proof (rnd_W W _ SW B2) as R2. rewrite eW in R2. set (t2 := rnd (t - dl)) in *. pose proof (Rabs_def3 _ _ R2) as R2'.
  assert (PT2' : 0 <= t2). { unfold t2. rewrite <- rnd_0. apply rnd_mono. lra. }
  assert (HW : 0 < W <= highest) by (split; [unfold W; lra|apply SW]).
  assert (F2 : fin32 (nsub K t1f (ad_duration (p_left q))) t2) by (apply (fin_sub _ _ prec24 max24); auto; apply small_huge; lra).
  set (t2f := nsub K t1f (ad_duration (p_left q))) in *.
  assert (Fl0 : fin32 (nadd K (nofZ K 0) (ad_length (p_left q))) xl) by now apply add_0_l.
  assert (VT2' : V * T2 <= L). { rewrite VT2. apply Rmax_lub; lra. }
  rewrite (K_leb X _ _ _ _ F2 Fmd). destruct (Raux.Rle_bool t2 md) eqn:B3.
  { (* constant speed *)
    apply leb_le in B3.
    assert (BV : 0 <= V * t2 <= 11/10 * L).
    { split; [apply Rmult_le_pos; lra|]. apply Rle_trans with (V * (T2 + 79/2 * e)); [apply Rmult_le_compat_l; lra|].
      replace (V * (T2 + 79/2 * e)) with (V * T2 + 79/2 * (V * e)) by ring. rewrite Ve. lra. }
    pose proof (rnd_err (V * t2)) as R3. set (y := rnd (V * t2)) in *.
    assert (Fy : fin32 (nmul K Vf t2f) y) by (apply (fin_mul _ _ prec24 max24); auto; apply small_huge; rewrite Rabs_pos_eq; lra).
    rewrite (Rabs_pos_eq (V * t2)) in R3 by lra.
    assert (R3' : eps * (V * t2) <= 11/10 * E) by (unfold E; replace (11/10 * (eps * L)) with (eps * (11/10 * L)) by ring; apply Rmult_le_compat_l; lra).
    apply Rabs_def3 in R3.
    assert (BX : Rabs (xl + y) <= 22/10 * L) by (apply abs_le; lra).
    pose proof (rnd_err (xl + y)) as R4. set (x := rnd (xl + y)) in *.
    assert (R4' : eps * Rabs (xl + y) <= 22/10 * E) by (unfold E; replace (22/10 * (eps * L)) with (eps * (22/10 * L)) by ring; apply Rmult_le_compat_l; lra).
    apply Rabs_def3 in R4. exists x. split.
    { apply (fin_add _ _ prec24 max24); auto. apply small_huge. lra. }
    assert (WM : 0 <= Rmin t2 T2 <= T2 /\ 0 <= t2 - Rmin t2 T2 <= 79/2 * e).
    { unfold Rmin. destruct (Rle_dec t2 T2); lra. }
    destruct WM as (WM & WD).
    apply (near (T1 + Rmin t2 T2) x 80).
    - unfold T. lra.
    - apply abs_le. lra.
    - rewrite ph2 by auto.
      assert (0 <= V * t2 - V * Rmin t2 T2 <= 79/2 * E).
      { rewrite <- Ve. replace (79/2 * (V * e)) with (V * (79/2 * e)) by ring. rewrite <- Rmult_minus_distr_l. split; [apply Rmult_le_pos; lra|apply Rmult_le_compat_l; lra]. }
      apply abs_le. lra. }
  (* last ramp *)
  apply leb_gt in B3.
  assert (B4 : Rabs (t2 - md) <= W). { apply abs_le. rewrite ?eW in *. unfold W, T in *. lra. }
  pose proof (rnd_W W _ SW B4) as R3. rewrite eW in R3. set (t3 := rnd (t2 - md)) in *. pose proof (Rabs_def3 _ _ R3) as R3'.
  assert (PT3' : 0 <= t3). { unfold t3. rewrite <- rnd_0. apply rnd_mono. lra. }
  assert (F3 : fin32 (nsub K t2f (ndiv K midf Vf)) t3) by (apply (fin_sub _ _ prec24 max24); auto; apply small_huge; lra).
  set (t3f := nsub K t2f (ndiv K midf Vf)) in *.
  assert (HXW : 25 * (eps * eps) * (j * W * W) <= V).
  { assert (JT : j * tau * tau <= 1099511627776 * V).
    { apply Rmult_le_reg_l with (V * V); [apply Rmult_lt_0_compat; auto|].
      replace (V * V * (j * tau * tau)) with (j * (V * tau) * (V * tau)) by ring. rewrite EL. lra. }
    unfold W. replace (25 * (eps * eps) * (j * (2001/1000 * tau) * (2001/1000 * tau))) with (25 * (2001/1000) * (2001/1000) * (eps * eps) * (j * tau * tau)) by ring.
    apply Rle_trans with (25 * (2001/1000) * (2001/1000) * (eps * eps) * (1099511627776 * V)).
    - apply Rmult_le_compat_l; auto. apply Rmult_le_pos; [lra|apply Rmult_le_pos; lra].
    - unfold eps. lra. }
  assert (R4 : fap (V * W) 53 (ad_s K (p_right q) t3f) (r_s r3 (Rmin t3 T3))).
  { apply (ramp_near X V T3 W j r3 (p_right q) I3 C3 Pj HV HT3) with (y0 := dr); auto.
    - unfold W, T in *. lra.
    - rewrite eW. lra. }
  destruct R4 as (y & Fy & Ey).
  replace (53 * (eps * (V * W))) with (53 * (2001/1000) * E) in Ey by (unfold W, E; rewrite <- EL; ring).
  apply Rabs_def3 in Ey.
  assert (WM : 0 <= Rmin t3 T3 <= T3 /\ 0 <= t3 - Rmin t3 T3 <= 17 * (eps * T3) + 203/25 * e).
  { unfold Rmin. destruct (Rle_dec t3 T3); lra. }
  destruct WM as (WM & WD).
  assert (BR : 0 <= r_s r3 (Rmin t3 T3) <= V * T3 / 2).
  { assert (A6 : 0 <= T1 + T2) by lra. assert (A7 : T1 + T2 + T3 = T) by reflexivity.
    pose proof (ph_mono (T1 + T2 + 0) (T1 + T2 + Rmin t3 T3) ltac:(lra) ltac:(lra)) as B5.
    pose proof (ph_mono (T1 + T2 + Rmin t3 T3) (T1 + T2 + T3) ltac:(lra) ltac:(lra)) as B6.
    rewrite !ph3 in B5, B6 by lra. rewrite <- L3.
    destruct (rs_start _ _ _ _ _ _ _ _ _ _ _ Rs3) as (E0 & _). destruct (rs_end _ _ _ _ _ _ _ _ _ _ _ Rs3) as (E1 & _). lra. }
  assert (BS : 0 <= V * T1 / 2 + V * T2 + V * T3 / 2 <= L + 24 * E).
  { rewrite VT2. unfold Rmax. destruct (Rle_dec 0 (L - (V * T1 / 2 + V * T3 / 2))); lra. }
  assert (P2 : 0 <= V * T2) by (apply Rmult_le_pos; lra).
  assert (BX : Rabs (xl + m) <= 11/10 * L) by (apply abs_le; lra).
  pose proof (rnd_err (xl + m)) as R4. set (z := rnd (xl + m)) in *.
  assert (R4' : eps * Rabs (xl + m) <= 11/10 * E) by (unfold E; replace (11/10 * (eps * L)) with (eps * (11/10 * L)) by ring; apply Rmult_le_compat_l; lra).
  apply Rabs_def3 in R4.
  assert (Fz : fin32 (nadd K (nadd K (nofZ K 0) (ad_length (p_left q))) midf) z).
  { apply (fin_add _ _ prec24 max24); auto. apply small_huge. lra. }
  assert (BY : Rabs (z + y) <= 11/10 * L) by (apply abs_le; lra).
  pose proof (rnd_err (z + y)) as R5. set (x := rnd (z + y)) in *.
  assert (R5' : eps * Rabs (z + y) <= 11/10 * E) by (unfold E; replace (11/10 * (eps * L)) with (eps * (11/10 * L)) by ring; apply Rmult_le_compat_l; lra).
  apply Rabs_def3 in R5. exists x. split.
  { apply (fin_add _ _ prec24 max24); auto. apply small_huge. lra. }
  apply (near (T1 + T2 + Rmin t3 T3) x 88).
  - unfold T. lra.
  - apply abs_le. lra.
  - rewrite ph3 by auto. apply abs_le. lra.
Qed.

Theorem phases_plan vm : V <= vm -> exists T len s v acc Tf,
  plan_spec 0 0 a d vm 0 0 T len s v acc /\ Rabs (len - L) <= 24 * (eps * L) /\
  fin32 (p_duration q) Tf /\ Rabs (Tf - T) <= 80 * (eps * T) /\
  (forall tf t, fin32 tf t -> 0 <= t <= Tf -> fap L 256 (p_s K q tf) (s (Rmin t T))) /\
  fap L 442 (p_s K q (p_duration q)) L /\ T * V <= 2 * len.
Proof.
  intro H. destruct phases_near as (Tf & F & ET & ELn & P).
  exists T, (V * T1 / 2 + V * T2 + V * T3 / 2), ph, (ph_v V 0 T2 r1 r3), (ph_a 0 T2 r1 r3), Tf.
  split; [now apply plan|]. do 3 (split; [assumption|]). split; [exact P|].
  split. 2:{ pose proof PT2. assert (0 <= V * T2) by (apply Rmult_le_pos; lra). unfold T. lra. }
  destruct durs as (xl & m & md & dl & dr & Tf' & _ & _ & _ & _ & _ & _ & _ & _ & _ & _ & _ & _ & A3 & _).
  apply Rabs_def3 in ET. assert (PTT : 0 < T) by lra.
  assert (e1 : 0 < eps * T <= / 10000000 * T) by (unfold eps; lra).
  destruct (P _ Tf F ltac:(lra)) as (x & Fx & Ex). exists x. split; auto.
  destruct (ps_end _ _ _ _ _ _ _ _ _ _ _ _ (plan vm H)) as (PT & _). fold E in Ex, ELn.
  assert (BM : Rabs (ph (Rmin Tf T) - ph T) <= V * (80 * (eps * T))).
  { assert (U : 0 <= Rmin Tf T <= T) by (unfold Rmin; destruct (Rle_dec Tf T); lra).
    eapply Rle_trans; [apply ph_lip; lra|]. apply Rmult_le_compat_l; [lra|]. apply abs_le.
    unfold Rmin. destruct (Rle_dec Tf T); lra. }
  assert (BT : V * (80 * (eps * T)) <= 161 * E).
  { apply Rle_trans with (V * (161 * e)).
    - apply Rmult_le_compat_l; [lra|]. unfold e. replace (80 * (eps * T)) with (eps * (80 * T)) by ring. replace (161 * (eps * tau)) with (eps * (161 * tau)) by ring. apply Rmult_le_compat_l; lra.
    - replace (V * (161 * e)) with (161 * (V * e)) by ring. rewrite Ve. lra. }
  apply Rabs_def3 in Ex. apply Rabs_def3 in ELn. apply Rabs_def3 in BM. fold E. apply abs_le. lra.
Qed.
End Phases.
End Plan.
