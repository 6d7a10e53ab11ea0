(** How an axis accelerates on a planned motion: C86. *)
Require Import List Arith NArith ZArith Bool Reals Lra Lia.
From Verif Require Import Base Num NumR MotionModel CtrlModel ProfileSpec ProfileProofs PlanProofs GeomSpec GeomProofs AxisAccelSpec.
Import ListNotations.
Open Scope R_scope.

(** A product [v * g] whose first factor changes at most at rate [K]. *)
Lemma prod_bound u v g g' K t w e : 0 < e -> 0 <= K ->
  (forall x, Rabs (x - t) < e -> u x = v x * g x) ->
  (forall x, Rabs (x - t) < e -> Rabs (v x - v t) <= K * Rabs (x - t)) ->
  derivable_pt_lim g t g' -> derivable_pt_lim u t w ->
  Rabs w <= K * Rabs (g t) + Rabs (v t * g').
Proof.
  intros He HK HU HV HG HW.
  assert (HC : continuity_pt g t) by (apply derivable_continuous_pt; exists g'; exact HG).
  apply Rnot_lt_le. intro C. set (gap := Rabs w - (K * Rabs (g t) + Rabs (v t * g'))).
  assert (GP : 0 < gap) by (unfold gap; lra).
  set (b := gap / (4 * (K + Rabs (v t) + 1))).
  assert (VP : 0 <= Rabs (v t)) by apply Rabs_pos.
  assert (BP : 0 < b) by (apply Rdiv_lt_0_compat; lra).
  assert (BE : b * (4 * (K + Rabs (v t) + 1)) = gap) by (unfold b; field; lra).
  destruct (HG b BP) as (d1 & H1). destruct (HW b BP) as (d2 & H2).
  destruct (HC b BP) as (d3 & P3 & H3).
  set (h := Rmin (Rmin d1 d2) (Rmin d3 e) / 2).
  assert (M : 0 < Rmin (Rmin d1 d2) (Rmin d3 e)).
  { apply Rmin_glb_lt; apply Rmin_glb_lt; auto; [apply d1|apply d2]. }
  assert (HP : 0 < h) by (unfold h; lra).
  assert (h < d1 /\ h < d2 /\ h < d3 /\ h < e) as (L1 & L2 & L3 & L4).
  { pose proof (Rmin_l (Rmin d1 d2) (Rmin d3 e)). pose proof (Rmin_r (Rmin d1 d2) (Rmin d3 e)).
    pose proof (Rmin_l d1 d2). pose proof (Rmin_r d1 d2). pose proof (Rmin_l d3 e). pose proof (Rmin_r d3 e).
    unfold h. repeat split; lra. }
  assert (AH : Rabs h = h) by (apply Rabs_right; lra).
  specialize (H1 h ltac:(lra) ltac:(lra)). specialize (H2 h ltac:(lra) ltac:(lra)).
  assert (G3 : Rabs (g (t + h) - g t) < b).
  { apply (H3 (t + h)). split; [split; [exact I|lra]|]. cbn. unfold R_dist. replace (t + h - t) with h by ring. lra. }
  assert (E : Rabs (t + h - t) = h) by (replace (t + h - t) with h by ring; auto).
  assert (E0 : Rabs (t - t) < e) by (rewrite Rminus_diag_eq, Rabs_R0 by auto; lra).
  rewrite (HU (t + h)), (HU t) in H2 by lra. specialize (HV (t + h) ltac:(lra)). rewrite E in HV.
  set (q := (v (t + h) - v t) / h).
  assert (Q : Rabs q <= K).
  { unfold q, Rdiv. rewrite Rabs_mult, Rabs_inv, AH by lra. apply (Rmult_le_reg_r h); auto.
    rewrite Rmult_assoc, Rinv_l by lra. lra. }
  set (p := (g (t + h) - g t) / h) in *.
  replace ((v (t + h) * g (t + h) - v t * g t) / h) with (q * g (t + h) + v t * p) in H2
    by (unfold q, p; field; lra).
  assert (B1 : Rabs (q * g (t + h)) <= K * (Rabs (g t) + b)).
  { rewrite Rabs_mult. apply Rmult_le_compat; try apply Rabs_pos; auto.
    replace (g (t + h)) with (g t + (g (t + h) - g t)) by ring. pose proof (Rabs_triang (g t) (g (t + h) - g t)). lra. }
  assert (B2 : Rabs (v t * p) <= Rabs (v t * g') + Rabs (v t) * b).
  { replace (v t * p) with (v t * g' + v t * (p - g')) by ring.
    eapply Rle_trans; [apply Rabs_triang|]. rewrite (Rabs_mult (v t) (p - g')).
    apply Rplus_le_compat_l. apply Rmult_le_compat_l; auto. lra. }
  assert (B3 : Rabs w <= Rabs (q * g (t + h)) + Rabs (v t * p) + b).
  { replace w with ((q * g (t + h) + v t * p) + - (q * g (t + h) + v t * p - w)) by ring.
    eapply Rle_trans; [apply Rabs_triang|]. rewrite Rabs_Ropp. pose proof (Rabs_triang (q * g (t + h)) (v t * p)). lra. }
  unfold gap in *. nra.
Qed.

Lemma dlim_unique f t l l' : derivable_pt_lim f t l -> derivable_pt_lim f t l' -> l = l'.
Proof. apply uniqueness_limite. Qed.

Lemma two_squares K x y : 0 <= K -> x * x + y * y = 1 -> K * Rabs x + K * Rabs y <= sqrt 2 * K.
Proof.
  intros HK H. replace (K * Rabs x + K * Rabs y) with ((Rabs x + Rabs y) * K) by ring.
  apply Rmult_le_compat_r; auto. pose proof (Rabs_pos x). pose proof (Rabs_pos y).
  rewrite <- (sqrt_square (Rabs x + Rabs y)) by lra. apply sqrt_le_1_alt.
  assert (X : Rabs x * Rabs x = x * x) by (rewrite <- Rabs_mult; apply Rabs_right, Rle_ge, (Rle_0_sqr x)).
  assert (Y : Rabs y * Rabs y = y * y) by (rewrite <- Rabs_mult; apply Rabs_right, Rle_ge, (Rle_0_sqr y)).
  pose proof (Rle_0_sqr (Rabs x - Rabs y)) as Q. unfold Rsqr in Q. lra.
Qed.

Section Accel.
Variables (P : path) (r : rmach) (V a d : R).
Hypothesis OK : path_ok P.
Hypothesis LO : limits_ok r P V a d.
Variables (v0 v1 vm t0 s0 t1 s1 : R) (s v acc : R -> R).
Hypothesis PS : plan_spec v0 v1 a d vm t0 s0 t1 s1 s v acc.
Hypothesis VM : vm <= V.

Lemma v_lip x y : t0 <= x <= t1 -> t0 <= y <= t1 -> Rabs (v x - v y) <= strongest a d * Rabs (x - y).
Proof.
  pose proof (lo_pos _ _ _ _ _ LO) as (_ & AP & DP). unfold strongest.
  pose proof (Rmax_l a (- d)). pose proof (Rmax_r a (- d)).
  assert (K : forall x y, t0 <= x <= t1 -> t0 <= y <= t1 -> x <= y -> Rabs (v x - v y) <= Rmax a (- d) * Rabs (x - y)).
  { intros p q Hp Hq L. destruct (ps_accel _ _ _ _ _ _ _ _ _ _ _ _ PS p q ltac:(lra) ltac:(lra)) as [E1 E2].
    rewrite Rabs_minus_sym, (Rabs_minus_sym p q), (Rabs_right (q - p)) by lra. apply Rabs_le.
    assert (a * (q - p) <= Rmax a (- d) * (q - p)) by (apply Rmult_le_compat_r; lra).
    assert (- d * (q - p) <= Rmax a (- d) * (q - p)) by (apply Rmult_le_compat_r; lra). lra. }
  intros Hx Hy. destruct (Rle_dec x y); [auto|]. rewrite Rabs_minus_sym, (Rabs_minus_sym x y). apply K; auto; lra.
Qed.

(** The derivative of the position of axis [i] along the path. *)
Definition path_dir (i : nat) (x : R) : R :=
  match pa_arc P with
  | Some c => let k := ar_da c / pa_len P in
      if (i =? ar_0 c)%nat then - (ar_r c * k) * sin (ar_a0 c + k * x)
      else if (i =? ar_1 c)%nat then ar_r c * k * cos (ar_a0 c + k * x) else pa_delta P i / pa_len P
  | None => pa_delta P i / pa_len P
  end.
Definition path_bend (i : nat) (x : R) : R :=
  match pa_arc P with
  | Some c => let k := ar_da c / pa_len P in
      if (i =? ar_0 c)%nat then - (ar_r c * k) * (k * cos (ar_a0 c + k * x))
      else if (i =? ar_1 c)%nat then ar_r c * k * - (k * sin (ar_a0 c + k * x)) else 0
  | None => 0
  end.

Lemma angle_dlim c k x : derivable_pt_lim (fun x => c + k * x) x k.
Proof.
  apply (dlim_ext _ (plus_fct (fun _ => c) (mult_real_fct k id)) x k (0 + k * 1)); [reflexivity|ring|].
  apply derivable_pt_lim_plus; [apply derivable_pt_lim_const|apply derivable_pt_lim_scal, derivable_pt_lim_id].
Qed.
Lemma cos_dlim c k x : derivable_pt_lim (fun x => cos (c + k * x)) x (- sin (c + k * x) * k).
Proof. apply (derivable_pt_lim_comp (fun x => c + k * x) cos); [apply angle_dlim|apply derivable_pt_lim_cos]. Qed.
Lemma sin_dlim c k x : derivable_pt_lim (fun x => sin (c + k * x)) x (cos (c + k * x) * k).
Proof. apply (derivable_pt_lim_comp (fun x => c + k * x) sin); [apply angle_dlim|apply derivable_pt_lim_sin]. Qed.
Lemma scaled_dlim b q f x l : derivable_pt_lim f x l -> derivable_pt_lim (fun x => b + q * f x) x (q * l).
Proof.
  intro H. apply (dlim_ext _ (plus_fct (fun _ => b) (mult_real_fct q f)) x _ (0 + q * l)); [reflexivity|ring|].
  apply derivable_pt_lim_plus; [apply derivable_pt_lim_const|apply derivable_pt_lim_scal; auto].
Qed.

Lemma pos_dlim i x : derivable_pt_lim (path_pos P i) x (path_dir i x).
Proof.
  destruct OK as (LP & _).
  assert (LIN : derivable_pt_lim (linear_pos P i) x (pa_delta P i / pa_len P)).
  { eapply (dlim_ext _ (fun x => pa_start P i + pa_delta P i / pa_len P * x)); [|reflexivity|apply angle_dlim].
    intro y. unfold linear_pos. field. lra. }
  unfold path_pos, path_dir. destruct (pa_arc P) as [c|]; [|exact LIN].
  cbv zeta. assert (E : forall y, ar_da c * (y / pa_len P) = ar_da c / pa_len P * y) by (intro; field; lra).
  destruct (i =? ar_0 c)%nat; [|destruct (i =? ar_1 c)%nat; [|exact LIN]].
  - eapply (dlim_ext _ (fun x => ar_c0 c + ar_r c * cos (ar_a0 c + ar_da c / pa_len P * x))); [intro; rewrite E; reflexivity| |apply scaled_dlim, cos_dlim]. ring.
  - eapply (dlim_ext _ (fun x => ar_c1 c + ar_r c * sin (ar_a0 c + ar_da c / pa_len P * x))); [intro; rewrite E; reflexivity| |apply scaled_dlim, sin_dlim]. ring.
Qed.

Lemma dir_dlim i x : derivable_pt_lim (path_dir i) x (path_bend i x).
Proof.
  unfold path_dir, path_bend. destruct (pa_arc P) as [c|]; [|apply derivable_pt_lim_const]. cbv zeta.
  destruct (i =? ar_0 c)%nat; [|destruct (i =? ar_1 c)%nat; [|apply derivable_pt_lim_const]].
  - eapply (dlim_ext _ (fun x => 0 + - (ar_r c * (ar_da c / pa_len P)) * sin (ar_a0 c + ar_da c / pa_len P * x))); [intro; ring| |apply scaled_dlim, sin_dlim]. ring.
  - eapply (dlim_ext _ (fun x => 0 + ar_r c * (ar_da c / pa_len P) * cos (ar_a0 c + ar_da c / pa_len P * x))); [intro; ring| |apply scaled_dlim, cos_dlim]. ring.
Qed.

Lemma speed_dlim i t : t0 < t < t1 -> derivable_pt_lim (fun t => path_pos P i (s t)) t (v t * path_dir i (s t)).
Proof.
  intro Ht. rewrite Rmult_comm. apply (derivable_pt_lim_comp s (path_pos P i)); [apply (ps_speed _ _ _ _ _ _ _ _ _ _ _ _ PS); auto|apply pos_dlim].
Qed.

(** The limits of an axis, in terms of the direction of the path. *)
Lemma strong_nonneg i : (i < 3)%nat -> 0 <= strongest (rm_a r i) (rm_d r i).
Proof.
  intro Hi. pose proof (lo_pos _ _ _ _ _ LO) as (_ & AP & _). pose proof (lo_a _ _ _ _ _ LO i Hi).
  pose proof (Rabs_pos (share P i)). unfold strongest. pose proof (Rmax_l (rm_a r i) (- rm_d r i)).
  assert (0 <= a * Rabs (share P i)) by (apply Rmult_le_pos; lra). lra.
Qed.
Lemma strong_share i : (i < 3)%nat -> strongest a d * Rabs (share P i) <= strongest (rm_a r i) (rm_d r i).
Proof.
  intro Hi. pose proof (lo_a _ _ _ _ _ LO i Hi). pose proof (lo_d _ _ _ _ _ LO i Hi). unfold strongest.
  pose proof (Rmax_l (rm_a r i) (- rm_d r i)). pose proof (Rmax_r (rm_a r i) (- rm_d r i)).
  destruct (Rle_dec a (- d)).
  - rewrite (Rmax_right a) by lra. lra.
  - rewrite (Rmax_left a) by lra. lra.
Qed.

Lemma accel_bound i t w : (i < 3)%nat -> t0 < t < t1 -> accelerates (fun t => path_pos P i (s t)) t w ->
  Rabs w <= (if on_arc P i then sqrt 2 else 1) * strongest (rm_a r i) (rm_d r i).
Proof.
  intros Hi Ht (u & e & He & HU & HW). pose proof (lo_pos _ _ _ _ _ LO) as (VP & AP & DP).
  pose proof (ps_vbound _ _ _ _ _ _ _ _ _ _ _ _ PS t ltac:(lra)) as [VB1 VB2].
  set (e' := Rmin e (Rmin (t - t0) (t1 - t))).
  assert (E1 : e' <= e /\ e' <= t - t0 /\ e' <= t1 - t).
  { unfold e'. pose proof (Rmin_l e (Rmin (t - t0) (t1 - t))). pose proof (Rmin_r e (Rmin (t - t0) (t1 - t))).
    pose proof (Rmin_l (t - t0) (t1 - t)). pose proof (Rmin_r (t - t0) (t1 - t)). lra. }
  assert (E2 : 0 < e') by (unfold e'; repeat apply Rmin_glb_lt; lra). destruct E1 as (L1 & L2 & L3). clearbody e'.
  assert (IN : forall x, Rabs (x - t) < e' -> t0 < x < t1 /\ Rabs (x - t) < e).
  { intros x Hx. split; [|lra]. apply Rabs_def2 in Hx. lra. }
  assert (SB : 0 <= strongest a d) by (unfold strongest; pose proof (Rmax_l a (- d)); lra).
  assert (DL : derivable_pt_lim (fun t => path_dir i (s t)) t (path_bend i (s t) * v t)).
  { apply (derivable_pt_lim_comp s (path_dir i)); [apply (ps_speed _ _ _ _ _ _ _ _ _ _ _ _ PS); auto|apply dir_dlim]. }
  pose proof (prod_bound u v (fun t => path_dir i (s t)) (path_bend i (s t) * v t) (strongest a d) t w e' E2 SB) as PB.
  assert (B : Rabs w <= strongest a d * Rabs (path_dir i (s t)) + Rabs (v t * (path_bend i (s t) * v t))).
  { apply PB; auto.
    - intros x Hx. destruct (IN x Hx) as [I1 I2]. apply (dlim_unique (fun t => path_pos P i (s t)) x); [apply HU; auto|apply speed_dlim; auto].
    - intros x Hx. destruct (IN x Hx) as [I1 I2]. apply v_lip; lra. }
  clear PB DL HW HU IN. pose proof (strong_share i Hi) as SS. pose proof (strong_nonneg i Hi) as SN.
  unfold path_dir, path_bend, share, on_arc in *. pose proof (lo_c _ _ _ _ _ LO) as LC. unfold on_arc in LC.
  destruct (pa_arc P) as [c|] eqn:EA.
  2:{ rewrite Rmult_0_l, Rmult_0_r, Rabs_R0 in B. lra. }
  specialize (LC c i eq_refl). pose proof (arc_share P OK c EA) as AS. destruct OK as (LP & HO). rewrite EA in HO. destruct HO as (RP & _).
  cbv zeta in B. set (k := ar_da c / pa_len P) in *. replace (ar_r c * ar_da c / pa_len P) with (ar_r c * k) in AS by (unfold k; field; lra).
  assert (RK : Rabs k <= / ar_r c).
  { rewrite Rabs_mult, (Rabs_right (ar_r c)) in AS by lra. apply (Rmult_le_reg_l (ar_r c)); auto. rewrite Rinv_r by lra. auto. }
  assert (CE : (i =? ar_0 c)%nat || (i =? ar_1 c)%nat = true -> forall y, Rabs (v t * (ar_r c * k * (k * y) * v t)) <= strongest (rm_a r i) (rm_d r i) * Rabs y).
  { intros Q y. specialize (LC Q). replace (v t * (ar_r c * k * (k * y) * v t)) with (v t * v t * (ar_r c * k) * k * y) by ring.
    rewrite Rabs_mult. apply Rmult_le_compat_r; [apply Rabs_pos|]. rewrite !Rabs_mult, (Rabs_right (v t)) by lra. rewrite <- (Rabs_mult (ar_r c) k).
    assert (v t * v t <= V * V) by (apply sq_mono; lra). pose proof (Rabs_pos k). pose proof (Rabs_pos (ar_r c * k)).
    assert (0 <= v t * v t) by (apply Rmult_le_pos; lra).
    assert (v t * v t * Rabs (ar_r c * k) <= V * V * 1) by (apply Rmult_le_compat; lra).
    assert (v t * v t * Rabs (ar_r c * k) * Rabs k <= V * V * 1 * / ar_r c).
    { apply Rmult_le_compat; auto. apply Rmult_le_pos; auto. }
    unfold strongest. pose proof (Rmax_l (rm_a r i) (- rm_d r i)). unfold Rdiv in LC. lra. }
  assert (TA : forall y, (i =? ar_0 c)%nat || (i =? ar_1 c)%nat = true -> strongest a d * Rabs (ar_r c * k * y) <= strongest (rm_a r i) (rm_d r i) * Rabs y).
  { intros y Q. rewrite Q in SS. rewrite Rabs_R1 in SS. rewrite Rabs_mult, <- Rmult_assoc. apply Rmult_le_compat_r; [apply Rabs_pos|].
    assert (strongest a d * Rabs (ar_r c * k) <= strongest a d * 1) by (apply Rmult_le_compat_l; auto). lra. }
  destruct (i =? ar_0 c)%nat; [|destruct (i =? ar_1 c)%nat].
  - cbn [orb] in *. eapply Rle_trans; [exact B|].
    eapply Rle_trans; [|apply (two_squares _ (sin (ar_a0 c + k * s t)) (cos (ar_a0 c + k * s t)) SN); pose proof (sin2_cos2 (ar_a0 c + k * s t)) as SC; unfold Rsqr in SC; exact SC].
    apply Rplus_le_compat.
    + rewrite <- Rabs_Ropp. replace (- (- (ar_r c * k) * sin (ar_a0 c + k * s t))) with (ar_r c * k * sin (ar_a0 c + k * s t)) by ring. apply TA; auto.
    + rewrite <- Rabs_Ropp. replace (- (v t * (- (ar_r c * k) * (k * cos (ar_a0 c + k * s t)) * v t))) with (v t * (ar_r c * k * (k * cos (ar_a0 c + k * s t)) * v t)) by ring. apply CE; auto.
  - cbn [orb] in *. eapply Rle_trans; [exact B|].
    eapply Rle_trans; [|apply (two_squares _ (cos (ar_a0 c + k * s t)) (sin (ar_a0 c + k * s t)) SN); pose proof (sin2_cos2 (ar_a0 c + k * s t)) as SC; unfold Rsqr in SC; lra].
    apply Rplus_le_compat; [apply TA; auto|].
    rewrite <- Rabs_Ropp. replace (- (v t * (ar_r c * k * - (k * sin (ar_a0 c + k * s t)) * v t))) with (v t * (ar_r c * k * (k * sin (ar_a0 c + k * s t)) * v t)) by ring. apply CE; auto.
  - cbn [orb] in *. rewrite Rmult_0_l, Rmult_0_r, Rabs_R0 in B. lra.
Qed.
End Accel.

(** *** The planned motion *)
Lemma planned_accel (m : smotion xr) P M r o fo st v0 v1 a d j vm t0 s0 V :
  describes m P -> path_ok P -> machine_is M r ->
  limits x_arith M (traj_set x_arith m) = (XF V, XF a, XF d) ->
  mo_traj o = traj_set x_arith m -> is_move (mo_type o) = true ->
  plan_input (mo_prof o) fo v0 v1 a d j vm t0 s0 -> feasible v0 v1 a d (pa_len P - s0) -> 0 <= pa_len P - s0 ->
  0 <= vm <= V -> v0 <= V -> v1 <= V ->
  exists t1 x, t0 <= t1 /\ ends_at (mo_prof (mo_optimize x_arith M o fo st)) t1 /\
    forall i, (i < 3)%nat ->
      axis_follows (mo_optimize x_arith M o fo st) i (x i) t0 t1 /\
      (forall t w, t0 < t < t1 -> accelerates (x i) t w ->
        Rabs w <= (if on_arc P i then sqrt 2 else 1) * strongest (rm_a r i) (rm_d r i)).
Proof.
  intros DS OK MI EL ET EM PI FE HL HV HV0 HV1.
  destruct (limits_lemma' m P M r DS OK MI) as (V' & a' & d' & EL' & LO). rewrite EL in EL'. injection EL' as <- <- <-.
  unfold mo_optimize. rewrite EM, ET. cbn [mo_prof aF x_arith].
  replace (t_length (traj_set x_arith m)) with (XF (pa_len P)) by (destruct DS as (E & _); cbn [t_length traj_set d2f x_arith]; rewrite E; reflexivity).
  destruct (optimize_lemma (mo_prof o) (pa_len P) (m_minS M) fo st v0 v1 a d j vm t0 s0 PI FE HL ltac:(lra))
    as (_ & _ & t1 & vM & s & v & acc & VM & _ & _ & FN & PLAN & _).
  set (q := p_optimize x_num (mo_prof o) (XF (pa_len P)) (m_minS M) fo st) in *.
  assert (CAP : Rmax v0 (Rmax vM v1) <= V).
  { assert (target st vm <= V) by (destruct st; cbn [target]; lra). assert (Rmax (target st vm) (Rmin v0 v1) <= V).
    { apply Rmax_lub; auto. pose proof (Rmin_l v0 v1). lra. }
    repeat apply Rmax_lub; lra. }
  assert (BD : exists v1' s1' vm', plan_spec v0 v1' a d vm' t0 s0 t1 s1' s v acc /\ vm' <= V /\ ends_at q t1).
  { destruct PLAN as [(_ & ED & _ & PS)|(_ & ED & _ & s1 & _ & PS)].
    - exists v1, (pa_len P), (Rmax v0 (Rmax vM v1)). unfold ends_at. auto.
    - exists 0, s1, v0. unfold ends_at. auto. }
  destruct BD as (v1' & s1' & vm' & PS & VB & EN).
  exists t1, (fun i t => path_pos P i (s t)). split; [apply (ps_time _ _ _ _ _ _ _ _ _ _ _ _ PS)|]. split; [exact EN|]. intros i Hi. split.
  - intros t Ht. cbn [mo_prof]. destruct (FN t ltac:(lra)) as (ES & _). rewrite ES. apply (position_eq m P DS OK); auto.
  - intros t w Ht HA. eapply accel_bound; eauto.
Qed.

(** *** A short arc on which an axis is accelerated beyond its limit *)
Definition fast_arc : path :=
  mkPath (1/2) (fun _ => 0) (fun _ => 0) (Some (mkArc 0 1 0 0 1 (PI / 3 - 81/400) (1/2))).
Definition fast_motion : smotion xr :=
  mkSM feedHelicalCCW (XF (1/2)) [XF 0; XF 0; XF 0] [XF 0; XF 0; XF 0] 0 1 (XF 0) (XF 0) (XF 1)
       (XF (PI / 3 - 81/400)) (XF (1/2)) (XF 30) (XF 0) false false (XF 0) true.
Definition fast_machine : machine xr :=
  mkMachine (XF 600) [XF 200; XF 200; XF 200] [XF (-200); XF (-200); XF (-200)] [XF 30; XF 30; XF 30]
            [XF 200; XF 200; XF 200] (XF 0).
Definition fast_limits : rmach := mkRM (fun _ => 30) (fun _ => 200) (fun _ => -200) (fun _ => 200) 600.

Lemma fast_describes : describes fast_motion fast_arc /\ path_ok fast_arc /\ machine_is fast_machine fast_limits.
Proof.
  split; [|split].
  - split; [reflexivity|]. split; [apply lt3; reflexivity|]. split; [apply lt3; reflexivity|]. repeat split; reflexivity.
  - split; [cbn; lra|]. cbn. split; [lra|]. split; [lia|]. split; [lia|]. split; [lia|]. unfold sq. cbn. field.
  - split; [reflexivity|]. split; [cbn; lra|]. apply lt3; cbn; repeat split; lra.
Qed.

Lemma fast_limit : limits x_arith fast_machine (traj_set x_arith fast_motion) = (XF (sqrt 200), XF 200, XF (-200)).
Proof.
  destruct fast_describes as (DS & OK & MI). destruct (limits_lemma' _ _ _ _ DS OK MI) as (v & a & d & E & LO). rewrite E.
  destruct (lo_pos _ _ _ _ _ LO) as (VP & AP & DP).
  pose proof (lo_v _ _ _ _ _ LO 0%nat ltac:(lia)) as HV. pose proof (lo_c _ _ _ _ _ LO _ 0%nat eq_refl eq_refl) as HC.
  destruct (lo_vmax _ _ _ _ _ LO) as (i & Hi & MV). destruct (lo_amax _ _ _ _ _ LO) as (k & Hk & MA). destruct (lo_dmax _ _ _ _ _ LO) as (l & Hl & MD).
  cbn in HV, HC. rewrite Rabs_R1 in HV.
  assert (SH : forall i, (i < 3)%nat -> Rabs (share fast_arc i) = 1 \/ Rabs (share fast_arc i) = 0).
  { apply lt3; unfold share; cbn; [left; apply Rabs_R1|left; apply Rabs_R1|right]. unfold Rdiv. rewrite Rmult_0_l. apply Rabs_R0. }
  cbn [fast_limits rm_v rm_a rm_d] in MV, MA, MD.
  assert (a = 200) as -> by (destruct (SH k Hk) as [Q|Q]; rewrite Q in MA; lra).
  assert (d = -200) as -> by (destruct (SH l Hl) as [Q|Q]; rewrite Q in MD; lra).
  assert (EV : v * v = 200).
  { destruct MV as [MV|(c & EC & _ & MV)].
    - destruct (SH i Hi) as [Q|Q]; rewrite Q in MV; [|lra]. assert (v = 30) by lra. subst v. lra.
    - cbn in EC. injection EC as <-. cbn in MV. lra. }
  rewrite <- EV, sqrt_square by lra. reflexivity.
Qed.

Definition fast_plan : motion xr := mo_set x_arith fast_machine (mo_zero x_arith) fast_motion (XF 1) maximizeSpeed.

Lemma sqrt200 : 10 < sqrt 200 < 30.
Proof.
  split; [rewrite <- (sqrt_square 10) by lra; apply sqrt_lt_1_alt; lra|].
  rewrite <- (sqrt_square 30) by lra. apply sqrt_lt_1_alt. lra.
Qed.

Lemma fast_phases : exists r1 r3 L2, phases (mo_prof fast_plan) firstOrder 0 10 0 200 (-200) 600 0 0 L2 r1 r3 /\ 0 <= L2 /\
  p_duration (mo_prof fast_plan) = XF (0 + r_T r1 + L2 / 10 + r_T r3).
Proof.
  unfold fast_plan, mo_set. cbn [sm_type fast_motion is_move]. cbv zeta. unfold mo_optimize. cbn [mo_type is_move mo_prof mo_traj].
  unfold prof_setSpeed. change (mkSM feedHelicalCCW _ _ _ _ _ _ _ _ _ _ _ _ _ _ _ _) with fast_motion. rewrite fast_limit.
  change (t_length (traj_set x_arith fast_motion)) with (XF (1/2)).
  set (p := mkP _ _ _ _ _ _ _ _ _ _ _ _).
  destruct (vTri_max_lemma 0 0 200 (-200) (1/2)) as (vT & ET & VT0 & VTE & _); try lra.
  assert (vT = 10) as ->.
  { assert (vT * vT = 100) by lra. assert ((vT - 10) * (vT + 10) = 0) by lra. destruct (Rmult_integral _ _ H0); lra. }
  destruct (vTri_min_lemma 0 0 200 (-200) (1/2)) as (vN & EM & VN0 & VNE & VN1 & _); try lra.
  specialize (VN1 ltac:(lra)). assert (vN = 0) as -> by lra.
  pose proof sqrt200 as SQ.
  assert (PL : p_plan x_num p (XF (1/2)) (m_minS fast_machine) (XF 1) maximizeSpeed = (XF 10, firstOrder)).
  { unfold p_plan. assert (QT : p_vTri x_num p (XF (1/2)) maximizeSpeed = XF 10).
    { unfold p_vTri, p. cbn [p_left p_right ad_vStart ad_vEnd ad_setvStart ad_setvEnd p_aMax p_dMax p_doneLength]. xs. cbn [aF x_arith nofZ x_num].
      replace (1/2 - 0) with (1/2) by ring. exact ET. }
    assert (QM : p_vTri x_num p (XF (1/2)) minimizeSpeed = XF 0).
    { unfold p_vTri, p. cbn [p_left p_right ad_vStart ad_vEnd ad_setvStart ad_setvEnd p_aMax p_dMax p_doneLength]. xs. cbn [aF x_arith nofZ x_num].
      replace (1/2 - 0) with (1/2) by ring. exact EM. }
    rewrite QT, QM. change (p_vFeed p) with (XF 30). change (p_vMax p) with (XF (sqrt 200)). xs.
    rewrite (rltb_if (sqrt 200) (30 * 1)). destruct (Rlt_dec (sqrt 200) (30 * 1)); [|lra].
    rewrite (rltb_if 10 (sqrt 200)). destruct (Rlt_dec 10 (sqrt 200)); [|lra].
    rewrite (rltb_if 10 0). destruct (Rlt_dec 10 0); [lra|]. reflexivity. }
  destruct (optimize_phases p (1/2) (m_minS fast_machine) (XF 1) maximizeSpeed 10 firstOrder 0 0 200 (-200) 600 0 0) as (o' & r1 & r3 & L2 & PH & L20 & _ & DU & _ & FO); auto; try lra.
  { rewrite flen_up, flen_down by lra. lra. }
  rewrite (FO eq_refl) in PH. exists r1, r3, L2. split; [exact PH|]. split; [auto|].
  rewrite xdiv_nz in DU by lra. exact DU.
Qed.

Lemma fast_found : exists T x t w, p_duration (mo_prof fast_plan) = XF T /\ axis_follows fast_plan 0 x 0 T /\
  0 < t < T /\ accelerates x t w /\ 213 < Rabs w.
Proof.
  destruct fast_describes as (DS & OK & MI). destruct fast_phases as (r1 & r3 & L2 & PH & L20 & DU).
  pose proof (phases_fun _ _ _ _ _ _ _ _ _ _ _ _ _ PH ltac:(lra)) as FN.
  assert (G1 : r_d1 r1 = 0 /\ r_d2 r1 = 1/20 /\ r_A r1 = 200 /\ r_v0 r1 = 0).
  { destruct (ph_g1 _ _ _ _ _ _ _ _ _ _ _ _ _ PH) as (E0 & _ & _ & _ & EV & _ & _ & FO). destruct (FO eq_refl) as [Z D].
    destruct (Rlt_dec 0 10); [|lra]. rewrite Z, D in EV. split; auto. split; [lra|]. split; [lra|auto]. }
  assert (T3 : 0 <= r_T r3).
  { destruct (ph_g3 _ _ _ _ _ _ _ _ _ _ _ _ _ PH) as (_ & _ & D1 & D2 & _). unfold r_T. lra. }
  destruct G1 as (Z1 & Z2 & Z3 & Z4). assert (T1 : r_T r1 = 1/20) by (unfold r_T; lra).
  assert (L3 : 0 <= L2 / 10) by (unfold Rdiv; apply Rmult_le_pos; lra).
  set (s := ph_s 10 0 0 (L2 / 10) r1 r3).
  assert (SE : forall t, 0 < t < 1/20 -> s t = 100 * (t * t)).
  { intros t Ht. unfold s, ph_s. rewrite T1, !rleb_if. destruct (Rle_dec t 0); [lra|]. destruct (Rle_dec (t - 0) (1/20)); [|lra].
    unfold r_s. rewrite Z1, Z2, Z3, Z4, !rltb_if. destruct (Rlt_dec (t - 0) 0); [lra|]. destruct (Rlt_dec (0 + 1/20) (t - 0)); [lra|]. field. }
  exists (0 + r_T r1 + L2 / 10 + r_T r3), (fun t => path_pos fast_arc 0 (s t)), (9/200).
  set (phi := fun t => PI / 3 - 81/400 + 100 * (t * t)).
  assert (PD : forall t, derivable_pt_lim phi t (200 * t)).
  { intro t. eapply (dlim_ext _ (fun x => (PI / 3 - 81/400) + 0 * x + 100 * (x * x) + 0 * (x * x * x))); [intro; unfold phi; ring| |apply dlim_poly]. ring. }
  assert (PE : phi (9/200) = PI / 3) by (unfold phi; field).
  exists (- (cos (PI / 3) * (200 * (9/200))) * (200 * (9/200)) + - sin (PI / 3) * 200).
  split; [exact DU|]. split; [|split; [lra|split]].
  - intros t _. destruct (FN t) as (-> & _). apply (position_eq fast_motion fast_arc DS OK); auto.
  - assert (D1 : forall t, 0 < t < 1/20 -> derivable_pt_lim (fun t => path_pos fast_arc 0 (s t)) t (- sin (phi t) * (200 * t))).
    { intros t Ht. apply (dlim_local _ (fun t => cos (phi t)) t _ (Rmin t (1/20 - t))); [apply Rmin_glb_lt; lra| |].
      - intros x Hx. pose proof (Rmin_l t (1/20 - t)). pose proof (Rmin_r t (1/20 - t)). apply Rabs_def2 in Hx.
        rewrite SE by lra. cbn. unfold phi. rewrite Rplus_0_l, Rmult_1_l. f_equal. field.
      - apply (derivable_pt_lim_comp phi cos); [apply PD|apply derivable_pt_lim_cos]. }
    exists (fun t => - sin (phi t) * (200 * t)), (1/200). split; [lra|]. split.
    + intros t' Ht. apply Rabs_def2 in Ht. apply D1. lra.
    + assert (SD : derivable_pt_lim (fun t => - sin (phi t)) (9/200) (- (cos (PI / 3) * (200 * (9/200))))).
      { rewrite <- PE. apply (derivable_pt_lim_opp (fun t => sin (phi t))). apply (derivable_pt_lim_comp phi sin); [apply PD|apply derivable_pt_lim_sin]. }
      rewrite <- PE. rewrite PE at 1.
      apply (derivable_pt_lim_mult (fun t => - sin (phi t)) (fun t => 200 * t)); [exact SD|].
      eapply (dlim_ext _ (fun x => 0 + 200 * x)); [intro; ring|reflexivity|apply angle_dlim].
  - rewrite cos_PI3, sin_PI3, Rabs_left.
    + assert (173/100 < sqrt 3) by (rewrite <- (sqrt_square (173/100)) by lra; apply sqrt_lt_1_alt; lra). lra.
    + assert (0 < sqrt 3) by (apply sqrt_lt_R0; lra). lra.
Qed.

Lemma fast_refuted : exists M r m P, machine_is M r /\ describes m P /\ path_ok P /\
  let o := mo_set x_arith M (mo_zero x_arith) m (XF 1) maximizeSpeed in
  exists T x t w, p_duration (mo_prof o) = XF T /\ axis_follows o 0 x 0 T /\ 0 < t < T /\ accelerates x t w /\
    strongest (rm_a r 0%nat) (rm_d r 0%nat) + 13 < Rabs w.
Proof.
  exists fast_machine, fast_limits, fast_motion, fast_arc. destruct fast_describes as (DS & OK & MI).
  split; auto. split; auto. split; auto. cbv zeta. fold fast_plan.
  destruct fast_found as (T & x & t & w & H1 & H2 & H3 & H4 & H5). exists T, x, t, w.
  split; auto. split; auto. split; auto. split; auto.
  unfold strongest. cbn [fast_limits rm_a rm_d]. assert (Rmax 200 (- -200) <= 200) by (apply Rmax_lub; lra). lra.
Qed.

(** The motion of [fast_arc], set but not yet planned. *)
Definition fast_before : motion xr :=
  mkMo feedHelicalCCW (traj_set x_arith fast_motion)
       (prof_setSpeed x_arith fast_machine (p_zero x_num) (traj_set x_arith fast_motion) fast_motion)
       (mkPer true (XF 0) false false).
Lemma fast_input : plan_input (mo_prof fast_before) (XF 1) 0 0 200 (-200) 600 (sqrt 200) 0 0.
Proof.
  unfold fast_before. cbn [mo_prof]. unfold prof_setSpeed. rewrite fast_limit. pose proof sqrt200.
  constructor; try reflexivity; try lra.
  cbn [p_vMax p_vFeed d2f x_arith sm_vFeed fast_motion xmul xltb]. rewrite rltb_if. destruct (Rlt_dec (sqrt 200) (30 * 1)); [auto|lra].
Qed.
