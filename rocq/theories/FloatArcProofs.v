(** binary32: circular and helical motions. *)
Require Import List Arith NArith ZArith Bool Reals Lra Lia ZifyBool ZifyNat ZifyN.
From Coq Require Import Floats.SpecFloat.
From Flocq Require Import Zaux Raux Defs Generic_fmt FLT Float_prop Round_NE Ulp Round_pred Relative Plus_error BinarySingleNaN.
From Verif Require Import Base BaseProofs Num NumR NumSF MotionModel CtrlModel CtrlSpec ProfileSpec GeomSpec RunSpec.
From Verif Require Import FloatSpec FloatRunSpec FloatArcSpec FloatProofs FloatClockProofs FloatTrackProofs FloatErrProofs FloatPlanProofs FloatStartProofs FloatJobProofs FloatLimitProofs.
Import ListNotations.
Open Scope R_scope.

(** *** Cosine and sine hardly change when the angle does. *)
Lemma lip1 f f' x y : (forall t, derivable_pt_lim f t (f' t)) -> (forall t, -1 <= f' t <= 1) -> Rabs (f x - f y) <= Rabs (x - y).
Proof.
  intros D B. assert (W : forall a b, a < b -> Rabs (f b - f a) <= b - a).
  { intros a b H. destruct (MVT_cor2 f f' a b H) as (c & E & _); [intros; apply D|]. rewrite E, Rabs_mult, (Rabs_pos_eq (b - a)) by lra.
    rewrite <- (Rmult_1_l (b - a)) at 2. apply Rmult_le_compat_r; [lra|]. apply Rabs_le. apply B. }
  destruct (Rtotal_order x y) as [L|[->|L]].
  - rewrite Rabs_minus_sym, (Rabs_minus_sym x y), (Rabs_pos_eq (y - x)) by lra. now apply W.
  - rewrite !Rminus_diag_eq by reflexivity. lra.
  - rewrite (Rabs_pos_eq (x - y)) by lra. now apply W.
Qed.
Lemma cos_lip x y : Rabs (cos x - cos y) <= Rabs (x - y).
Proof. apply (lip1 cos (fun t => - sin t)); [apply derivable_pt_lim_cos|]. intro t. pose proof (SIN_bound t). lra. Qed.
Lemma sin_lip x y : Rabs (sin x - sin y) <= Rabs (x - y).
Proof. apply (lip1 sin cos); [apply derivable_pt_lim_sin|]. intro t. apply COS_bound. Qed.

(** *** The angle per length, the angle, and the position. *)
Lemma turn_fin x y d len : float64 x d -> float64 y len -> / 20000 <= len <= 1048576 -> Rabs d <= 50 -> d = 0 \/ len <= 1000000000000000000000000 * Rabs d ->
  exists v, fin32 (sf_cvt 24 128 (SFdiv 53 1024 x y)) v /\ Rabs (v - d / len) * len <= 11/10 * eps * Rabs d + eps / 1000 /\ (v = 0 -> d = 0).
Proof.
  intros FD FY LB DB DN. set (q := d / len).
  assert (QL : Rabs q * len = Rabs d). { unfold q, Rdiv. rewrite Rabs_mult, (Rabs_pos_eq (/ len)) by (left; apply Rinv_0_lt_compat; lra). field; lra. }
  assert (QB : Rabs q <= 1000000). { pose proof (Rabs_pos q). assert (Rabs q * / 20000 <= Rabs q * len) by (apply Rmult_le_compat_l; lra). lra. }
  assert (F : fin64 (SFdiv 53 1024 x y) (rnd53 q)).
  { apply (fin_div _ _ prec53 max53); [apply fin_float64; auto|apply fin_float64; auto|lra|]. apply small53. unfold q in QB. lra. }
  pose proof (rnd53_err q) as E1. set (q1 := rnd53 q) in *. pose proof (rnd_err q1) as E2. pose proof (Rabs_pos q) as Q0.
  assert (Q1 : Rabs q1 <= 1.001 * Rabs q + eta). { assert (Rabs q1 <= Rabs q + Rabs (q1 - q)); [|unfold eta in *; lra]. replace q1 with (q + (q1 - q)) at 1 by ring. apply Rabs_triang. }
  assert (VQ : Rabs (rnd q1 - q) <= 11/10 * eps * Rabs q + 3 * eta). { apply Rabs_le_inv in E1. apply Rabs_le_inv in E2. apply Rabs_le. unfold eps, eta in *. lra. }
  exists (rnd q1). split; [apply cvt_fin; auto; unfold eta in *; lra|]. split.
  - apply Rle_trans with ((11/10 * eps * Rabs q + 3 * eta) * len); [apply Rmult_le_compat_r; lra|].
    replace ((11/10 * eps * Rabs q + 3 * eta) * len) with (11/10 * eps * (Rabs q * len) + 3 * eta * len) by ring. rewrite QL. unfold eps, eta. lra.
  - intro Z. destruct DN as [DN|DN]; auto. exfalso. rewrite Z in VQ.
    assert (QM : / 1000000000000000000000000 <= Rabs q). { apply (Rmult_le_reg_r len); [lra|]. rewrite QL. lra. }
    rewrite Rminus_0_l, Rabs_Ropp in VQ. unfold eps, eta in *. lra.
Qed.
(** [f] is the cosine or the sine. *)
Lemma round_fin X (f : R -> R) (g : sf -> sf) : (forall x r, float32 x r -> Rabs r <= 100 -> exists c, float32 (g x) c /\ Rabs (c - f r) <= / 8388608) ->
  (forall x y, Rabs (f x - f y) <= Rabs (x - y)) -> (forall x, -1 <= f x <= 1) ->
  forall cf af wf rf dist c0 a0 da rr v x len k B, fin32 cf (rnd c0) -> fin32 af (rnd a0) -> fin32 wf v -> fin32 rf (rnd rr) -> float32 dist x ->
  / 20000 <= len <= 1048576 -> Rabs (v - da / len) * len <= 11/10 * eps * Rabs da + eps / 1000 -> Rabs x <= 11/10 * len -> / 1000000 <= rr -> 0 < k ->
  Rabs a0 + 2 * Rabs da <= 98 -> k * (Rabs c0 + rr * (4 + Rabs a0 + 2 * Rabs da)) + 1 <= B -> B <= 1048576 -> Rabs c0 + rr <= 1048576 ->
  exists r, float32 (nadd (aF (sf_arith X)) cf (nmul (aF (sf_arith X)) rf (g (nadd (aF (sf_arith X)) af (nmul (aF (sf_arith X)) wf dist))))) r /\
    Rabs (r * k) <= B /\ Rabs (r * k - k * (c0 + rr * f (a0 + da * (x / len)))) <= 2 * slack B.
Proof.
  intros G LIP BND cf af wf rf dist c0 a0 da rr v x len k B Fc Fa Fw Fr Fx LB EV XB R0 K0 TURN RB BB RC.
  pose proof (Rabs_pos a0) as A0. pose proof (Rabs_pos da) as D0. pose proof (Rabs_pos c0) as C0. set (q := da / len) in *.
  replace (da * (x / len)) with (q * x) by (unfold q; field; lra). set (th := a0 + q * x).
  assert (QL : Rabs q * len = Rabs da). { unfold q, Rdiv. rewrite Rabs_mult, (Rabs_pos_eq (/ len)) by (left; apply Rinv_0_lt_compat; lra). field; lra. }
  assert (QX : Rabs (q * x) <= 11/10 * Rabs da). { rewrite Rabs_mult, <- QL. replace (11/10 * (Rabs q * len)) with (Rabs q * (11/10 * len)) by ring. apply Rmult_le_compat_l; [apply Rabs_pos|auto]. }
  assert (VX : Rabs (v * x - q * x) <= 122/100 * eps * Rabs da + eps / 500).
  { rewrite <- Rmult_minus_distr_r, Rabs_mult. apply Rle_trans with (Rabs (v - q) * (11/10 * len)); [apply Rmult_le_compat_l; [apply Rabs_pos|auto]|]. unfold eps in *. lra. }
  assert (VXB : Rabs (v * x) <= 111/100 * Rabs da + / 1000). { apply Rabs_le_inv in VX. apply Rabs_le_inv in QX. unfold eps in VX. apply Rabs_le. lra. }
  pose proof (rnd_err (v * x)) as E1. pose proof (rnd_err a0) as E2. set (p1 := rnd (v * x)) in *. set (a1 := rnd a0) in *.
  assert (E1' : Rabs (p1 - v * x) <= eps * (111/100 * Rabs da + / 1000) + eta) by (eapply Rle_trans; [exact E1|]; apply Rplus_le_compat_r, Rmult_le_compat_l; [unfold eps; lra|auto]).
  assert (FP : fin32 (nmul (aF (sf_arith X)) wf dist) p1) by (apply (fin_mul _ _ prec24 max24); auto; [apply fin_float32; auto|apply small_le; lra]).
  assert (TA : Rabs (a1 + p1) <= 1.01 * (Rabs a0 + 112/100 * Rabs da) + / 100).
  { apply Rabs_le_inv in E1'. apply Rabs_le_inv in E2. apply Rabs_le_inv in VXB. pose proof (Rle_abs a0). pose proof (Rle_abs (- a0)). rewrite Rabs_Ropp in H0. unfold eps, eta in *. apply Rabs_le. lra. }
  pose proof (rnd_err (a1 + p1)) as E3. set (t1 := rnd (a1 + p1)) in *.
  assert (FT : fin32 (nadd (aF (sf_arith X)) af (nmul (aF (sf_arith X)) wf dist)) t1) by (apply (fin_add _ _ prec24 max24); auto; apply small_le; lra).
  assert (E3' : Rabs (t1 - (a1 + p1)) <= eps * (1.01 * (Rabs a0 + 112/100 * Rabs da) + / 100) + eta) by (eapply Rle_trans; [exact E3|]; apply Rplus_le_compat_r, Rmult_le_compat_l; [unfold eps; lra|auto]).
  assert (TB : Rabs t1 <= 100). { apply Rabs_le_inv in E3'. apply Rabs_le_inv in TA. unfold eps, eta in *. apply Rabs_le. lra. }
  assert (TH : Rabs (t1 - th) <= eps * (5/2 * Rabs a0 + 4 * Rabs da + / 10)).
  { apply Rabs_le_inv in E1'. apply Rabs_le_inv in E2. apply Rabs_le_inv in E3'. apply Rabs_le_inv in VX. unfold th, eps, eta in *. apply Rabs_le. lra. }
  destruct (G _ t1 ltac:(apply fin_float32; exact FT) TB) as (c & FC & EC). apply fin_float32 in FC. pose proof (LIP t1 th) as L. pose proof (BND th) as BD.
  set (ft := f th) in *.
  assert (CE : Rabs (c - ft) <= eps * (21/10 + 5/2 * Rabs a0 + 4 * Rabs da)). { apply Rabs_le_inv in EC. apply Rabs_le_inv in L. apply Rabs_le. unfold eps in *. lra. }
  assert (CB : Rabs c <= 101/100). { apply Rabs_le_inv in CE. apply Rabs_le. unfold eps in *. lra. }
  (* radius times cosine *)
  pose proof (rnd_err rr) as E4. rewrite (Rabs_pos_eq rr) in E4 by lra. set (r1 := rnd rr) in *.
  assert (RC1 : Rabs (r1 * c - rr * ft) <= eps * (rr * (32/10 + 5/2 * Rabs a0 + 4 * Rabs da)) + 2 * eta).
  { replace (r1 * c - rr * ft) with ((r1 - rr) * c + rr * (c - ft)) by ring. eapply Rle_trans; [apply Rabs_triang|]. rewrite !Rabs_mult, (Rabs_pos_eq rr) by lra.
    assert (Rabs (r1 - rr) * Rabs c <= (eps * rr + eta) * (101/100)) by (apply Rmult_le_compat; auto using Rabs_pos).
    assert (rr * Rabs (c - ft) <= rr * (eps * (21/10 + 5/2 * Rabs a0 + 4 * Rabs da))) by (apply Rmult_le_compat_l; lra). unfold eps, eta in *. lra. }
  assert (RAD : 0 <= rr * Rabs a0 /\ 0 <= rr * Rabs da) by (split; apply Rmult_le_pos; lra). destruct RAD as (RA0 & RD0).
  assert (RAB : rr * Rabs a0 <= rr * 100 /\ rr * Rabs da <= rr * 50) by (split; apply Rmult_le_compat_l; lra). destruct RAB as (RAB1 & RAB2).
  assert (RF : - rr <= rr * ft <= rr). { replace (- rr) with (rr * -1) by ring. rewrite <- (Rmult_1_r rr) at 4. split; apply Rmult_le_compat_l; lra. }
  assert (RCB : Rabs (r1 * c) <= 101/100 * rr + 2 * eta). { apply Rabs_le_inv in RC1. apply Rabs_le. unfold eps in *. lra. }
  pose proof (rnd_err (r1 * c)) as E5. set (p2 := rnd (r1 * c)) in *.
  assert (E5' : Rabs (p2 - r1 * c) <= eps * (101/100 * rr + 2 * eta) + eta) by (eapply Rle_trans; [exact E5|]; apply Rplus_le_compat_r, Rmult_le_compat_l; [unfold eps; lra|auto]).
  assert (FP2 : fin32 (nmul (aF (sf_arith X)) rf (g (nadd (aF (sf_arith X)) af (nmul (aF (sf_arith X)) wf dist)))) p2).
  { apply (fin_mul _ _ prec24 max24); auto. apply small_le. unfold eta in *. lra. }
  pose proof (rnd_err c0) as E6. set (c1 := rnd c0) in *.
  assert (SUM : Rabs (c1 + p2) <= 102/100 * (Rabs c0 + rr) + 5 * eta).
  { apply Rabs_le_inv in E5'. apply Rabs_le_inv in E6. apply Rabs_le_inv in RCB. pose proof (Rle_abs c0). pose proof (Rle_abs (- c0)). rewrite Rabs_Ropp in H0. apply Rabs_le. unfold eps, eta in *. lra. }
  pose proof (rnd_err (c1 + p2)) as E7. set (r := rnd (c1 + p2)) in *.
  assert (E7' : Rabs (r - (c1 + p2)) <= eps * (102/100 * (Rabs c0 + rr) + 5 * eta) + eta) by (eapply Rle_trans; [exact E7|]; apply Rplus_le_compat_r, Rmult_le_compat_l; [unfold eps; lra|auto]).
  exists r. split; [apply fin_float32; apply (fin_add _ _ prec24 max24); auto; apply small_le; unfold eta in *; lra|].
  set (Z := Rabs c0 + rr * (4 + Rabs a0 + 2 * Rabs da)) in *.
  apply (steps_fin r _ Z); auto.
  - unfold Z. lra.
  - pose proof (Rle_abs c0). pose proof (Rle_abs (- c0)). rewrite Rabs_Ropp in H0. unfold Z. apply Rabs_le. lra.
  - apply Rabs_le_inv in RC1. apply Rabs_le_inv in E5'. apply Rabs_le_inv in E6. apply Rabs_le_inv in E7'. unfold Z. apply Rabs_le. unfold eps, eta in *. lra.
Qed.

Section Geom.
Variables (X : sf_funs) (M : machine sf) (fo : sf) (u : funit) (m : smotion sf) (P : path) (l : flimits) (arc : arcp).
Notation A := (sf_arith X).
Notation K := (aF A).
Hypothesis TR : trig_ok X.
Hypothesis S : curved X M fo u m P l arc.
Notation len := (pa_len P).

Lemma clen_ok : / 20000 <= len <= 1048576 /\ Rabs (fl_L l - len) <= 2 * (eps * len).
Proof. destruct (cu_length _ _ _ _ _ _ _ _ S). eapply len_near; eauto. apply S. Qed.
Lemma on_arc_eq i : on_arc P i = is_arc (ar_0 arc) (ar_1 arc) i.
Proof. unfold on_arc, is_arc. now rewrite (proj1 (cu_arc _ _ _ _ _ _ _ _ S)). Qed.
Lemma turn_dir i : (i < 3)%nat -> on_arc P i = true ->
  exists v, fin32 (nthF A (t_dRT (traj_set A m)) i) v /\ Rabs (v - ar_da arc / len) * len <= 11/10 * eps * Rabs (ar_da arc) + eps / 1000 /\ (v = 0 -> ar_da arc = 0).
Proof.
  intros Hi HA. destruct clen_ok as (LB & _). destruct (cu_arc _ _ _ _ _ _ _ _ S) as (_ & A0 & A1 & _). rewrite on_arc_eq in HA.
  assert (E : nthF A (t_dRT (traj_set A m)) i = sf_cvt 24 128 (SFdiv 53 1024 (sm_deltaAngle m) (sm_length m))).
  { unfold traj_set. cbn [t_dRT]. rewrite A0, A1. destruct i as [|[|[|i]]]; [..|lia]; unfold nthF; cbn [map nth axes]; rewrite HA; reflexivity. }
  rewrite E. destruct (cu_circle _ _ _ _ _ _ _ _ S) as (_ & _ & _ & _ & FD). destruct (cu_length _ _ _ _ _ _ _ _ S) as (FL & _). pose proof (cu_turns _ _ _ _ _ _ _ _ S) as TN.
  pose proof (Rabs_pos (ar_a0 arc)). apply turn_fin; auto; [lra|]. apply S.
Qed.
Lemma side_dir i : (i < 3)%nat -> on_arc P i = false ->
  exists v, fin32 (nthF A (t_dRT (traj_set A m)) i) v /\ Rabs (v - pa_delta P i / len) <= 11/10 * eps /\ (v = 0 -> pa_delta P i = 0).
Proof.
  intros Hi HA. destruct clen_ok as (LB & _). destruct (cu_arc _ _ _ _ _ _ _ _ S) as (_ & A0 & A1 & _). destruct (cu_delta _ _ _ _ _ _ _ _ S i Hi HA) as (_ & FD & DB & DN). rewrite on_arc_eq in HA.
  assert (E : nthF A (t_dRT (traj_set A m)) i = sf_cvt 24 128 (SFdiv 53 1024 (nthD A (sm_delta m) i) (sm_length m))).
  { unfold traj_set. cbn [t_dRT]. rewrite A0, A1. destruct i as [|[|[|i]]]; [..|lia]; unfold nthF; cbn [map nth axes]; rewrite HA; reflexivity. }
  rewrite E. destruct (cu_length _ _ _ _ _ _ _ _ S) as (FL & _). apply ratio_fin; auto. lra.
Qed.

Lemma arc_pos o i dist x : fu_B u <= 1048576 -> mo_traj o = traj_set A m -> (i < 3)%nat -> float32 dist x -> Rabs x <= 11/10 * len -> 0 < fu_k u i ->
  exists r, float32 (mo_position A o i dist) r /\ Rabs (r * fu_k u i) <= fu_B u /\ Rabs (r * fu_k u i - fu_k u i * path_pos P i x) <= 2 * slack (fu_B u).
Proof.
  intros BB EO Hi FX XB KP. destruct clen_ok as (LB & _). destruct (cu_arc _ _ _ _ _ _ _ _ S) as (PA & A0 & A1 & _ & _ & NE).
  destruct (cu_circle _ _ _ _ _ _ _ _ S) as (F0 & F1 & FR & FA & _). apply fin_float64 in F0, F1, FR, FA. destruct (cu_sweep _ _ _ _ _ _ _ _ S) as (R0 & _).
  pose proof (cu_turns _ _ _ _ _ _ _ _ S) as TN. pose proof (cu_range _ _ _ _ _ _ _ _ S i Hi) as RG. pose proof (Rabs_pos (ar_da arc)) as D0. pose proof (Rabs_pos (ar_a0 arc)) as AA.
  assert (FA' : fin32 (t_startAngle (traj_set A m)) (rnd (ar_a0 arc))) by (apply cvt_fin; auto; lra).
  unfold mo_position. rewrite EO. cbn [traj_set t_arc0 t_arc1]. rewrite A0, A1. unfold path_pos. rewrite PA.
  assert (OA : on_arc P i = true -> Rabs (centre arc i) + ar_r arc <= 1048576) by (intro E; rewrite E in RG; apply RG).
  assert (FR' : on_arc P i = true -> fin32 (t_radius (traj_set A m)) (rnd (ar_r arc))).
  { intro E. apply cvt_fin; auto. specialize (OA E). pose proof (Rabs_pos (centre arc i)). rewrite Rabs_pos_eq; lra. }
  unfold centre in *. destruct (Nat.eqb_spec i (ar_0 arc)) as [E0|N0]; [|destruct (Nat.eqb_spec i (ar_1 arc)) as [E1|N1]].
  - assert (E : on_arc P i = true) by (rewrite on_arc_eq; unfold is_arc; rewrite E0, Nat.eqb_refl; reflexivity). rewrite E in RG. destruct RG as (RG & RC).
    destruct (turn_dir i Hi E) as (v & Fv & Ev & _).
    apply (round_fin X cos (fcosf X)) with (v := v); auto using cos_lip, COS_bound. { intros y r Fy Hy. apply (TR y r Fy Hy). } apply cvt_fin; auto; lra.
  - assert (E : on_arc P i = true) by (rewrite on_arc_eq; unfold is_arc; rewrite E1, Nat.eqb_refl, orb_true_r; reflexivity). rewrite E in RG. destruct RG as (RG & RC).
    destruct (turn_dir i Hi E) as (v & Fv & Ev & _).
    apply (round_fin X sin (fsinf X)) with (v := v); auto using sin_lip, SIN_bound. { intros y r Fy Hy. apply (TR y r Fy Hy). } apply cvt_fin; auto; lra.
  - assert (E : on_arc P i = false). { rewrite on_arc_eq. unfold is_arc. apply Nat.eqb_neq in N0, N1. now rewrite N0, N1. } rewrite E in RG. destruct RG as (RG & RC).
    destruct (side_dir i Hi E) as (v & Fv & Ev & _). destruct (cu_delta _ _ _ _ _ _ _ _ S i Hi E) as (FS & FD & DB & _). apply fin_float64 in FS.
    unfold linear_pos. replace (pa_delta P i * (x / len)) with (pa_delta P i / len * x) by (field; lra).
    apply linear_fin with (v := v) (len := len); auto; try lra.
    + assert (EE : nthF A (t_start (traj_set A m)) i = sf_cvt 24 128 (nthD A (sm_start m) i)) by (destruct i as [|[|[|i]]]; [reflexivity..|lia]).
      rewrite EE. apply cvt_fin; auto. lra.
    + unfold Rdiv. rewrite Rabs_mult, (Rabs_pos_eq (/ len)) by (left; apply Rinv_0_lt_compat; lra).
      apply (Rmult_le_reg_r len); [lra|]. rewrite Rmult_assoc, Rinv_l by lra. lra.
Qed.

Lemma arc_lin i x y : (i < 3)%nat -> Rabs (path_pos P i x - path_pos P i y) <= over * Rabs (x - y).
Proof.
  intro Hi. destruct clen_ok as (LB & _). destruct (cu_arc _ _ _ _ _ _ _ _ S) as (PA & _). destruct (cu_sweep _ _ _ _ _ _ _ _ S) as (R0 & SW & _).
  unfold path_pos. rewrite PA. pose proof (Rabs_pos (x - y)) as XY.
  assert (T : ar_r arc * Rabs (ar_a0 arc + ar_da arc * (x / len) - (ar_a0 arc + ar_da arc * (y / len))) <= over * Rabs (x - y)).
  { replace (ar_a0 arc + ar_da arc * (x / len) - (ar_a0 arc + ar_da arc * (y / len))) with (ar_da arc * / len * (x - y)) by (field; lra).
    rewrite !Rabs_mult, <- !Rmult_assoc. apply Rmult_le_compat_r; auto. rewrite (Rabs_pos_eq (/ len)) by (left; apply Rinv_0_lt_compat; lra).
    apply (Rmult_le_reg_r len); [lra|]. rewrite Rmult_assoc, Rinv_l by lra. lra. }
  destruct (Nat.eqb_spec i (ar_0 arc)) as [E0|N0]; [|destruct (Nat.eqb_spec i (ar_1 arc)) as [E1|N1]].
  - match goal with |- Rabs (?c + ?r * ?a - (?c + ?r * ?b)) <= _ => replace (c + r * a - (c + r * b)) with (r * (a - b)) by ring end.
    rewrite Rabs_mult, Rabs_pos_eq by lra. eapply Rle_trans; [|exact T]. apply Rmult_le_compat_l; [lra|]. apply cos_lip.
  - match goal with |- Rabs (?c + ?r * ?a - (?c + ?r * ?b)) <= _ => replace (c + r * a - (c + r * b)) with (r * (a - b)) by ring end.
    rewrite Rabs_mult, Rabs_pos_eq by lra. eapply Rle_trans; [|exact T]. apply Rmult_le_compat_l; [lra|]. apply sin_lip.
  - assert (E : on_arc P i = false). { rewrite on_arc_eq. unfold is_arc. apply Nat.eqb_neq in N0, N1. now rewrite N0, N1. }
    destruct (cu_delta _ _ _ _ _ _ _ _ S i Hi E) as (_ & _ & DB & _). unfold linear_pos.
    match goal with |- Rabs ?z <= _ => replace z with (pa_delta P i * / len * (x - y)) by (field; lra) end.
    rewrite Rabs_mult. apply Rmult_le_compat_r; auto.
    rewrite Rabs_mult, (Rabs_pos_eq (/ len)) by (left; apply Rinv_0_lt_compat; lra).
    apply (Rmult_le_reg_r len); [lra|]. rewrite Rmult_assoc, Rinv_l, Rmult_1_r by lra. unfold over. lra.
Qed.
Lemma arc_fixed o i x y : mo_traj o = traj_set A m -> (i < 3)%nat -> mo_isMoving A o i = false -> path_pos P i x = path_pos P i y.
Proof.
  intros EO Hi HM. destruct clen_ok as (LB & _). destruct (cu_arc _ _ _ _ _ _ _ _ S) as (PA & _). unfold mo_isMoving in HM. rewrite EO in HM.
  assert (Z : forall r, fin32 (nthF A (t_dRT (traj_set A m)) i) r -> r = 0).
  { intros r Fr. rewrite (K_eqb X _ _ r 0 Fr) in HM by (apply (fin_lit X 0); lia). destruct (Req_bool_spec r 0); auto; discriminate. }
  pose proof on_arc_eq i as OE. unfold path_pos. rewrite PA. destruct (on_arc P i) eqn:E.
  - destruct (turn_dir i Hi E) as (r & Fr & _ & RZ). rewrite (RZ (Z r Fr)), !Rmult_0_l. unfold is_arc in OE. destruct (i =? ar_0 arc)%nat, (i =? ar_1 arc)%nat; auto; discriminate.
  - destruct (side_dir i Hi E) as (r & Fr & _ & RZ). unfold is_arc in OE. destruct (i =? ar_0 arc)%nat, (i =? ar_1 arc)%nat; try discriminate. unfold linear_pos. rewrite (RZ (Z r Fr)). ring.
Qed.
Lemma curved_carried : funit_ok X M u -> carried X M fo u m P l over.
Proof.
  intros UO. pose proof (fu_large _ _ _ UO) as (LB1 & LB2). constructor; try apply S.
  - exact clen_ok.
  - split; [unfold over; lra|]. intros. now apply arc_lin.
  - intros. apply arc_pos; auto. apply LB1. apply (fu_steps _ _ _ UO i); auto.
  - intros o i x y EO Hi HM. now apply (arc_fixed o).
Qed.
End Geom.

Lemma arc_job X M fo u : trig_ok X -> funit_ok X M u -> forall w, float32 w (fu_W u) ->
  forall c x0 qs, idle X c w fo -> Forall (move_ok X M fo u) qs -> qs <> [] -> (length qs <= 32)%nat -> joined (fu_k u) x0 (map fq_P qs) ->
  (forall i, (i < 3)%nat -> Rabs (fu_k u i * x0 i - counted c i) <= 54/100) ->
  exists c0 legs (n : nat) cn,
    c_run (sf_arith X) M c (map (fun q => OAppend (fq_m q)) qs ++ [OStart]) = Ok (c0, []) /\
    Forall2 (fun g q => executes u g (fq_P q) (fq_l q)) legs qs /\
    (forall j, (j < n)%nat -> exists cj, ticks_run (sf_arith X) M j c0 = Ok cj /\ under_way u x0 legs cj j) /\
    ticks_run (sf_arith X) M n c0 = Ok cn /\ all_done u x0 legs cn n /\ idle X cn w fo.
Proof.
  intros TR UO w FW c x0 qs. apply job_any; auto. intros q [Sq|(arc & Sq)].
  - exists 1. now apply straight_carried.
  - exists over. now apply curved_carried with (arc := arc).
Qed.

(** *** The limits *)
(** The square root of the acceleration times the radius. *)
Lemma inward_fin X x y a rad : fin32 x a -> float64 y rad -> moderate a -> moderate rad ->
  exists r, fin32 (nsqrt (aF (sf_arith X)) (nmul (aF (sf_arith X)) x (sf_cvt 24 128 y))) r /\ 0 < r /\ (1 - / 250000) * (a * rad) <= r * r <= (1 + / 250000) * (a * rad) /\ / 16384 <= r.
Proof.
  unfold moderate. intros Fx Fy Ha Hr. apply fin_float64 in Fy. assert (F1 : fin32 (sf_cvt 24 128 y) (rnd rad)) by (apply cvt_fin; auto; rewrite Rabs_pos_eq; lra).
  pose proof (rnd_err rad) as E1. rewrite (Rabs_pos_eq rad) in E1 by lra. apply Rabs_le_inv in E1. set (r1 := rnd rad) in *.
  assert (B1 : (1 - 2 * eps) * rad <= r1 <= (1 + 2 * eps) * rad) by (unfold eps, eta in *; lra).
  set (p := a * rad). assert (PB : / 67108864 <= p <= 250000000000). { unfold p. split; [replace (/ 67108864) with (/ 8192 * / 8192) by lra; apply Rmult_le_compat; lra|]. replace 250000000000 with (500000 * 500000) by lra. apply Rmult_le_compat; lra. }
  assert (B2 : (1 - 2 * eps) * p <= a * r1 <= (1 + 2 * eps) * p).
  { unfold p. replace ((1 - 2 * eps) * (a * rad)) with (a * ((1 - 2 * eps) * rad)) by ring. replace ((1 + 2 * eps) * (a * rad)) with (a * ((1 + 2 * eps) * rad)) by ring. split; apply Rmult_le_compat_l; lra. }
  assert (P0 : 0 < a * r1) by (unfold eps in *; lra).
  assert (F2 : fin32 (nmul (aF (sf_arith X)) x (sf_cvt 24 128 y)) (rnd (a * r1))). { refine (fin_mul _ _ prec24 max24 _ _ _ _ Fx F1 _). apply small_le. rewrite Rabs_pos_eq by lra. unfold eps in *. lra. }
  pose proof (rnd_err (a * r1)) as E2. rewrite (Rabs_pos_eq (a * r1)) in E2 by lra. apply Rabs_le_inv in E2. set (p1 := rnd (a * r1)) in *.
  assert (B3 : (1 - 5 * eps) * p <= p1 <= (1 + 5 * eps) * p) by (unfold eps, eta in *; lra).
  assert (Q0 : 0 < p1) by (unfold eps in *; lra).
  assert (F3 : fin32 (nsqrt (aF (sf_arith X)) (nmul (aF (sf_arith X)) x (sf_cvt 24 128 y))) (rnd (sqrt p1))) by (apply (fin_sqrt _ _ prec24 max24); [exact F2|lra]).
  set (s := sqrt p1) in *. assert (S0 : 0 < s) by (apply sqrt_lt_R0; lra). assert (SS : s * s = p1) by (apply sqrt_sqrt; lra).
  assert (SL : / 8200 <= s). { destruct (Rle_lt_dec (/ 8200) s); auto. exfalso. assert (s * s <= / 8200 * / 8200) by (apply Rmult_le_compat; lra). unfold eps in *. lra. }
  pose proof (rnd_err s) as E3. rewrite (Rabs_pos_eq s) in E3 by lra. apply Rabs_le_inv in E3. set (r := rnd s) in *.
  assert (B4 : (1 - 2 * eps) * s <= r <= (1 + 2 * eps) * s) by (unfold eps, eta in *; lra).
  assert (B5 : ((1 - 2 * eps) * s) * ((1 - 2 * eps) * s) <= r * r <= ((1 + 2 * eps) * s) * ((1 + 2 * eps) * s)).
  { assert (0 <= (1 - 2 * eps) * s) by (unfold eps; lra). split; apply Rmult_le_compat; lra. }
  replace (((1 - 2 * eps) * s) * ((1 - 2 * eps) * s)) with ((1 - 2 * eps) * (1 - 2 * eps) * p1) in B5 by (rewrite <- SS; ring).
  replace (((1 + 2 * eps) * s) * ((1 + 2 * eps) * s)) with ((1 + 2 * eps) * (1 + 2 * eps) * p1) in B5 by (rewrite <- SS; ring).
  exists r. split; auto. fold p. unfold eps in *. repeat split; lra.
Qed.
Lemma arc_limits X M a d v j m dl len rad fo f : axis_limits X M a d v j -> curved_by X m dl len rad -> feed_is m fo f -> gentle_arc m a d v j len rad f ->
  exists l, fl_j l = j /\ Rabs (fl_L l - len) <= len / 4194304 /\
    limits_kept a d v f (most m dl len) len l /\ inward_kept m a rad l /\ arc_limits_used m a d v f (most m dl len) len rad l /\
    standing X (prof_setSpeed (sf_arith X) M (p_zero (aF (sf_arith X))) (traj_set (sf_arith X) m) m) (t_length (traj_set (sf_arith X) m)) fo (fl_a l) (fl_d l) (fl_j l) (fl_vm l) (fl_L l).
Proof.
  intros AL CB FE ((V & TV & JV) & (U & U0 & UV & UF & JU)).
  destruct (cb_length _ _ _ _ _ CB) as (FL & LB). destruct (cb_radius _ _ _ _ _ CB) as (FR & RB). pose proof RB as RB'. unfold moderate in RB'. destruct (cb_arc _ _ _ _ _ CB) as (A0 & A1 & AN).
  assert (D : exists vd, dirs X m (most m dl len) len vd).
  { assert (D1 : forall i, (i < 3)%nat -> exists v, fin32 (nthF (sf_arith X) (t_dir (traj_set (sf_arith X) m)) i) v /\ (most m dl len i = 0 -> v = 0) /\
      (most m dl len i <> 0 -> / 1000000000000000000000000 <= Rabs (most m dl len i) / len <= 1 /\ Rabs (Rabs v - Rabs (most m dl len i) / len) <= / 500000 * (Rabs (most m dl len i) / len))).
    { intros i Hi. unfold most. pose proof (cb_delta _ _ _ _ _ CB i Hi) as CD. destruct (is_arc (sm_arc0 m) (sm_arc1 m) i) eqn:IA.
      - exists 1. assert (E : nthF (sf_arith X) (t_dir (traj_set (sf_arith X) m)) i = nofZ (aF (sf_arith X)) 1).
        { unfold traj_set. cbn [t_dir]. destruct i as [|[|[|i]]]; [..|lia]; unfold nthF; cbn [map nth axes]; rewrite IA; reflexivity. }
        rewrite E. split; [apply (fin_lit X 1); lia|]. split; [lra|]. intros _. rewrite (Rabs_pos_eq len), (Rabs_pos_eq 1) by lra. replace (len / len) with 1 by (field; lra). rewrite Rminus_diag_eq, Rabs_R0 by reflexivity. lra.
      - destruct (CD eq_refl) as (FD & DB & DN). assert (E : nthF (sf_arith X) (t_dir (traj_set (sf_arith X) m)) i = sf_cvt 24 128 (SFdiv 53 1024 (nthD (sf_arith X) (sm_delta m) i) (sm_length m))).
        { unfold traj_set. cbn [t_dir]. destruct i as [|[|[|i]]]; [..|lia]; unfold nthF; cbn [map nth axes]; rewrite IA; reflexivity. }
        rewrite E. now apply dir_ratio. }
    destruct (D1 0%nat ltac:(lia)) as (v0 & H0). destruct (D1 1%nat ltac:(lia)) as (v1 & H1). destruct (D1 2%nat ltac:(lia)) as (v2 & H2).
    exists (fun i => match i with 0%nat => v0 | 1%nat => v1 | _ => v2 end). intros [|[|[|i]]] Hi; auto; lia. }
  destruct D as (vd & D).
  assert (C : exists cen, forall i, (i < 3)%nat -> if is_arc (sm_arc0 m) (sm_arc1 m) i
    then exists r, cen i = Some r /\ fin32 (nsqrt (aF (sf_arith X)) (nmul (aF (sf_arith X)) (nthF (sf_arith X) (m_aMax M) i) (t_radius (traj_set (sf_arith X) m)))) r /\
      0 < r /\ (1 - / 250000) * (a i * rad) <= r * r <= (1 + / 250000) * (a i * rad) /\ / 16384 <= r else cen i = None).
  { assert (C1 : forall i, (i < 3)%nat -> exists e, if is_arc (sm_arc0 m) (sm_arc1 m) i
      then exists r, e = Some r /\ fin32 (nsqrt (aF (sf_arith X)) (nmul (aF (sf_arith X)) (nthF (sf_arith X) (m_aMax M) i) (t_radius (traj_set (sf_arith X) m)))) r /\
      0 < r /\ (1 - / 250000) * (a i * rad) <= r * r <= (1 + / 250000) * (a i * rad) /\ / 16384 <= r else e = None).
    { intros i Hi. destruct (is_arc (sm_arc0 m) (sm_arc1 m) i); [|eauto]. destruct (al_a _ _ _ _ _ _ AL i Hi) as (Fa & Ma). apply fin_float32 in Fa.
      destruct (inward_fin X _ _ (a i) rad Fa FR Ma RB) as (r & Fr & H). exists (Some r), r. auto. }
    destruct (C1 0%nat ltac:(lia)) as (v0 & H0). destruct (C1 1%nat ltac:(lia)) as (v1 & H1). destruct (C1 2%nat ltac:(lia)) as (v2 & H2).
    exists (fun i => match i with 0%nat => v0 | 1%nat => v1 | _ => v2 end). intros [|[|[|i]]] Hi; auto; lia. }
  destruct C as (cen & C).
  assert (CV : forall i r, (i < 3)%nat -> cen i = Some r -> is_arc (sm_arc0 m) (sm_arc1 m) i = true /\ 0 < r /\ (1 - / 250000) * (a i * rad) <= r * r <= (1 + / 250000) * (a i * rad) /\ / 16384 <= r).
  { intros i r Hi E. specialize (C i Hi). destruct (is_arc (sm_arc0 m) (sm_arc1 m) i); [|congruence]. destruct C as (r' & E' & _ & C). assert (r' = r) by congruence. subst r'. auto. }
  destruct (limits_any X M a d v j m (most m dl len) len fo f cen vd U V AL D FL LB) as (l & Jl & Ll & Kl & Cl & Ua & Ud & Uv & ST); auto.
  - exists (sm_arc0 m). split; auto. unfold most, is_arc. rewrite Nat.eqb_refl. cbn [orb]. rewrite Rabs_pos_eq; lra.
  - intros i Hi. specialize (C i Hi). change (is_arc (t_arc0 (traj_set (sf_arith X) m)) (t_arc1 (traj_set (sf_arith X) m)) i) with (is_arc (sm_arc0 m) (sm_arc1 m) i).
    destruct (is_arc (sm_arc0 m) (sm_arc1 m) i); auto. destruct C as (r & E & F & _). eauto.
  - intros i Hi. apply (UV i Hi).
  - intros i r Hi E. destruct (CV i r Hi E) as (IA & R0 & RR & RL). split; auto. destruct (UV i Hi) as (_ & UA). specialize (UA IA).
    destruct (Rle_lt_dec ((1 - / 250000) * U) r) as [|N]; auto. exfalso. assert (r * r <= ((1 - / 250000) * U) * ((1 - / 250000) * U)) by (apply Rmult_le_compat; lra).
    assert (0 < U * U) by (apply Rmult_lt_0_compat; lra). lra.
  - exists l. split; auto. split; auto. split; auto. 
    assert (VM : 0 < fl_vm l). { destruct (sd_usual _ _ _ _ _ _ _ _ _ ST) as (_ & _ & _ & U4 & _). unfold usual in U4. lra. }
    split.
    { intros i Hi IA. pose proof (C i Hi) as CI. rewrite IA in CI. destruct CI as (r & E & _ & R0 & RR & _). pose proof (Cl i r Hi E) as LE.
      assert (fl_vm l * fl_vm l <= r * r) by (apply Rmult_le_compat; lra). apply (Rmult_le_reg_r rad); [lra|]. unfold Rdiv. rewrite Rmult_assoc, Rinv_l by lra. lra. }
    split; [|exact ST]. split; auto. split; auto. destruct Uv as [Uv|[Uv|(i & Hi & Uv)]]; auto. right; right. exists i. split; auto. destruct (CV i _ Hi Uv) as (IA & _ & RR & _). split; auto.
    apply (Rmult_le_reg_r rad); [lra|]. replace (fl_vm l * fl_vm l / rad * rad) with (fl_vm l * fl_vm l) by (field; lra). lra.
Qed.

(** *** Cosine and sine that are accurate enough exist. *)
Lemma rounded_near f x r : float32 x r -> -1 <= f r <= 1 -> exists c, float32 (rounded f x) c /\ Rabs (c - f r) <= / 8388608.
Proof.
  intros (_ & E) B. unfold rounded. rewrite E. destruct (archimed (f r * 1073741824)) as (U1 & U2). set (n := up (f r * 1073741824)) in *.
  assert (E1 : F2R (Float radix2 n (-30)) = IZR n * / 1073741824). { unfold F2R. cbn [Fnum Fexp]. change (bpow radix2 (-30)) with (/ 1073741824). reflexivity. }
  exists (rnd (F2R (Float radix2 n (-30)))). rewrite E1. split.
  - apply fin_float32. rewrite <- E1. apply (fin_normalize _ _ prec24 max24). apply small_le. rewrite E1. apply Rabs_le. lra.
  - pose proof (rnd_err (IZR n * / 1073741824)) as E2. assert (Rabs (IZR n * / 1073741824) <= 101/100) by (apply Rabs_le; lra). apply Rabs_le_inv in E2. apply Rabs_le. unfold eps, eta in *. lra.
Qed.
Lemma exact_trig_ok X : trig_ok (exact_trig X).
Proof. intros x r Fx _. split; apply rounded_near; auto; [apply COS_bound|apply SIN_bound]. Qed.

(** *** An example: up a helix, and back round while going further up. *)
Lemma f64 x r : valid_binary 53 1024 x = true -> (match x with S754_zero _ => 0 | S754_finite s m e => (if s then -1 else 1) * IZR (Z.pos m) * bpow radix2 e | _ => r + 1 end) = r -> float64 x r.
Proof. intros V E. split; auto. destruct x; cbn [sf_val]; try (f_equal; auto); try (exfalso; lra). rewrite <- bpow_val. auto. Qed.
Lemma half_ok X z : (z = 0 \/ z = 3 \/ z = -3)%Z -> float64 (ndiv (aD (sf_arith X)) (nofZ (aD (sf_arith X)) z) (nofZ (aD (sf_arith X)) 2)) (IZR z / 2).
Proof.
  intros [-> |[-> | ->]]; match goal with |- float64 ?x _ => let y := eval vm_compute in x in change x with y end; (apply f64; [reflexivity|]); cbv iota;
    try change (bpow radix2 (-52)) with (/ 4503599627370496); lra.
Qed.
Local Ltac labs := repeat match goal with |- context [Rabs ?x] => first [rewrite (Rabs_pos_eq x) by lra | rewrite (Rabs_left1 x) by lra] end.
Lemma helix_ok X q : q = ex_h1 X \/ q = ex_h2 X -> exists arc, curved X (cnc3axis (sf_arith X)) (nofZ (aF (sf_arith X)) 1) ex_hu (fq_m q) (fq_P q) (fq_l q) arc.
Proof.
  assert (V : forall m e r, valid_binary 24 128 (S754_finite false m e) = true -> IZR (Z.pos m) * bpow radix2 e = r -> float32 (S754_finite false m e) r).
  { intros m e r H1 H2. apply f32; auto. rewrite Rmult_1_l. auto. }
  intros [-> | ->]; eexists; constructor; try (split; [reflexivity|]);
    cbn [ex_h1 ex_h2 ex_hu fq_P fq_l fq_m helix helix_path sm_type sm_arc0 sm_arc1 sm_length sm_center0 sm_center1 sm_radius sm_startAngle sm_deltaAngle pa_len pa_start pa_delta pa_arc ar_0 ar_1 ar_c0 ar_c1 ar_r ar_a0 ar_da fl_a fl_d fl_j fl_vm fl_L fu_k fu_B fu_H fu_W fu_T sm_start sm_delta map]; auto;
    unfold tick_gap, last_gap, over; try (intros; lra); try (split; [apply float64_lit; lia|lra]).
  1,8: repeat split; auto; lia.
  1,7: (split; [apply float64_lit; lia|]); (split; [apply float64_lit; lia|]); (split; [apply float64_lit; lia|]); split; apply half_ok; auto.
  1,6: split; [lra|]; split; [labs; lra|right; labs; lra].
  1,5: intros [|[|[|i]]] Hi OA; try discriminate OA; try lia; unfold nthD; cbn [nth]; (split; [apply float64_lit; lia|]); (split; [apply float64_lit; lia|]); (split; [labs; lra|right; labs; lra]).
  2,5: labs; lra.
  2,4: intros [|[|[|i]]] Hi; try lia; cbn [on_arc helix_path pa_arc ar_0 ar_1 Nat.eqb orb centre ar_c0 ar_c1 nth]; labs; lra.
  all: remember (prof_setSpeed _ _ _ _ _) as p eqn:E; vm_compute in E; remember (t_length _) as l eqn:El; vm_compute in El.
  all: constructor; subst; try (split; reflexivity); unfold usual; try lra; cbn [p_aMax p_dMax p_jMax].
  all: try (apply f32; [reflexivity|]; cbv iota; change (bpow radix2 (-16)) with (/ 65536); change (bpow radix2 (-14)) with (/ 16384); change (bpow radix2 (-18)) with (/ 262144); lra).
  all: eexists; split; [|vm_compute; reflexivity]; apply V; [reflexivity|]; change (bpow radix2 (-19)) with (/ 524288); lra.
Qed.
Lemma arc_example X : trig_ok X -> let A := sf_arith X in let M := cnc3axis A in let fo := nofZ (aF A) 1 in let c := c_init A 375 (tickWidth A) in
  let qs := [ex_h1 X; ex_h2 X] in let x0 := fun _ => 0 in
  idle X c (tickWidth A) fo /\ float32 (tickWidth A) (fu_W ex_hu) /\ funit_ok X M ex_hu /\ Forall (move_ok X M fo ex_hu) qs /\
  joined (fu_k ex_hu) x0 (map fq_P qs) /\ (forall i, (i < 3)%nat -> Rabs (fu_k ex_hu i * x0 i - counted c i) <= 54/100) /\
  (forall i, (i < 3)%nat -> Rabs (fu_k ex_hu i * end_of x0 (map fq_P qs) i - IZR (nth i [0; 0; 16000]%Z 0%Z)) < 1 - reach (fu_B ex_hu) (fu_H ex_hu)).
Proof.
  intros _. cbv zeta. split. { constructor; reflexivity. }
  split. { apply clock_example. }
  split. { constructor; cbn [ex_hu fu_k fu_B fu_H fu_W fu_T]; try lra. intros i Hi. split; [|lra].
    assert (E : nthF (sf_arith X) (m_stepsPerMm (cnc3axis (sf_arith X))) i = S754_finite false 13107200 (-16)) by (destruct i as [|[|[|i]]]; [reflexivity..|lia]).
    rewrite E. apply f32; [reflexivity|]. change (bpow radix2 (-16)) with (/ 65536). lra. }
  split. { constructor; [|constructor; [|constructor]]; right; apply helix_ok; auto. }
  assert (N : forall a b, a = b -> Rabs (200 * (a - b)) <= / 1000) by (intros a b ->; rewrite Rminus_diag_eq, Rmult_0_r, Rabs_R0 by reflexivity; lra).
  split. { cbn [map joined ex_h1 ex_h2 fq_P helix_path ex_hu fu_k]. unfold path_pos, linear_pos. cbn [helix_path pa_arc pa_len pa_start pa_delta].
    split; [|split; [|exact I]]; intros [|[|[|i]]] Hi; try lia; cbn [Nat.eqb ar_0 ar_1 ar_c0 ar_c1 ar_r ar_a0 ar_da nth]; apply N.
    - replace (0 / 2 + 3 / 2 * (0 / 50)) with 0 by field. rewrite cos_0. lra.
    - replace (0 / 2 + 3 / 2 * (0 / 50)) with 0 by field. rewrite sin_0. lra.
    - lra.
    - replace (3 / 2 + -3 / 2 * (0 / 50)) with (0 / 2 + 3 / 2 * (50 / 50)) by field. reflexivity.
    - replace (3 / 2 + -3 / 2 * (0 / 50)) with (0 / 2 + 3 / 2 * (50 / 50)) by field. reflexivity.
    - lra. }
  split. { intros [|[|[|i]]] Hi; try lia; cbn [ex_hu fu_k]; unfold counted; cbn; apply Rabs_le; lra. }
  intros i Hi. cbn [map end_of ex_h1 ex_h2 fq_P helix_path ex_hu fu_k fu_B fu_H]. unfold reach, slack, path_pos, linear_pos. cbn [helix_path pa_arc pa_len pa_start pa_delta].
  destruct i as [|[|[|i]]]; try lia; cbn [Nat.eqb ar_0 ar_1 ar_c0 ar_c1 ar_r ar_a0 ar_da nth].
  - replace (3 / 2 + -3 / 2 * (50 / 50)) with 0 by field. rewrite cos_0. apply Rabs_def1; lra.
  - replace (3 / 2 + -3 / 2 * (50 / 50)) with 0 by field. rewrite sin_0. apply Rabs_def1; lra.
  - apply Rabs_def1; lra.
Qed.
Lemma arc_limits_example X : let A := sf_arith X in let M := cnc3axis A in let fo := nofZ (aF A) 1 in
  let a := fun _ : nat => 200 in let v := fun _ : nat => 30 in let dl := fun i => IZR (nth i [0; 0; 40]%Z 0%Z) in let m := fq_m (ex_h1 X) in
  axis_limits X M a a v 600 /\ curved_by X m dl 50 20 /\ feed_is m fo (Some 20) /\ gentle_arc m a a v 600 50 20 (Some 20).
Proof.
  cbv zeta. split; [apply (limits_example X)|]. split.
  { constructor; cbn [ex_h1 fq_m helix sm_arc0 sm_arc1 sm_length sm_radius].
    - lia.
    - split; [apply float64_lit; lia|lra].
    - split; [apply float64_lit; lia|unfold moderate; lra].
    - intros [|[|[|i]]] Hi OA; try discriminate OA; try lia. cbn [nth]. split; [apply float64_lit; lia|]. split; [labs; lra|right; labs; lra]. }
  split. { exists 1. split; [apply fin_float32, (fin_lit X 1); lia|]. split; [lra|]. exists 20. split; [apply float64_lit; lia|]. lra. }
  split; [exists 20; split; [right; exists 20; split; [reflexivity|lra]|intros; lra]|]. exists 20. split; [lra|]. split; [intros; lra|]. split; [intros g G; injection G as <-; lra|lra].
Qed.
