(** Proofs about gcode.cpp over the reals: speeds, straight motions and arcs. *)
Require Import List Arith NArith ZArith Bool Lia Reals Lra Psatz.
From Verif Require Import Base Num NumR MotionModel CtrlModel GcodeModel GcodeSpec GcodeRSpec GeomSpec
  GBlockProofs GParseProofs GHeadProofs GStageProofs GMeaningProofs GeomProofs.
Import ListNotations.
Open Scope R_scope.

Local Notation K := x_num.
Local Notation pi := (XF PI).

(** ** Angles *)
Lemma atan2_pos y x : 0 < x -> let r := sqrt (x * x + y * y) in
  r * cos (atan (y / x)) = x /\ r * sin (atan (y / x)) = y.
Proof.
  intros X r. pose proof (atan_bound (y / x)) as B. pose proof (tan_atan (y / x)) as E. unfold tan in E.
  remember (atan (y / x)) as t eqn:Et. clear Et.
  assert (C : 0 < cos t) by (apply cos_gt_0; lra).
  assert (T : sin t = y / x * cos t).
  { rewrite <- E. field. lra. }
  clear E.
  pose proof (sin2_cos2 t) as Q. unfold Rsqr in Q. rewrite T in Q.
  assert (Q1 : (x * x + y * y) * (cos t * cos t) = x * x).
  { apply (Rmult_eq_reg_r (/ (x * x))); [|apply Rinv_neq_0_compat; nra].
    replace (x * x * / (x * x)) with 1 by (field; lra).
    rewrite <- Q. field. lra. }
  assert (R0 : 0 < r) by (apply sqrt_lt_R0; nra).
  assert (RR : r * r = x * x + y * y) by (apply sqrt_sqrt; nra).
  assert (E : r * cos t = x).
  { apply Rsqr_inj; [nra|lra|]. unfold Rsqr. nra. }
  split; [exact E|]. rewrite T. replace (r * (y / x * cos t)) with (y / x * (r * cos t)) by ring. rewrite E. field. lra.
Qed.

Lemma ratan2_spec y x : 0 < x * x + y * y -> let r := sqrt (x * x + y * y) in
  r * cos (ratan2 y x) = x /\ r * sin (ratan2 y x) = y.
Proof.
  intros H r. unfold ratan2. destruct (Rlt_dec 0 x) as [X|X]; [now apply atan2_pos|].
  destruct (Rlt_dec x 0) as [X'|X'].
  - destruct (atan2_pos (- y) (- x) ltac:(lra)) as (A & B).
    replace (- x * - x + - y * - y) with (x * x + y * y) in A, B by ring. fold r in A, B.
    replace (- y / - x) with (y / x) in A, B by (field; lra).
    destruct (Rle_dec 0 y).
    + rewrite neg_cos, neg_sin. lra.
    + rewrite cos_minus, sin_minus, cos_PI, sin_PI. split; lra.
  - assert (x = 0) by lra. subst x. clear X X'.
    assert (E : r = Rabs y).
    { unfold r. replace (0 * 0 + y * y) with (y * y) by ring. replace (y * y) with (Rsqr y) by reflexivity. apply sqrt_Rsqr_abs. }
    rewrite E. destruct (Rlt_dec 0 y).
    + rewrite cos_PI2, sin_PI2, Rabs_right by lra. lra.
    + destruct (Rlt_dec y 0); [|exfalso; nra].
      rewrite cos_neg, sin_neg, cos_PI2, sin_PI2, Rabs_left by lra. lra.
Qed.

Lemma ratan2_range y x : - PI < ratan2 y x <= PI.
Proof.
  pose proof PI_RGT_0. pose proof (atan_bound (y / x)) as B. unfold ratan2.
  destruct (Rlt_dec 0 x); [lra|]. destruct (Rlt_dec x 0) as [L|L].
  - destruct (Rle_dec 0 y) as [Y|Y].
    + assert (y / x <= 0). { unfold Rdiv. assert (/ x < 0) by (apply Rinv_lt_0_compat; lra). nra. }
      assert (atan (y / x) <= 0). { destruct (Req_dec (y / x) 0) as [->|]; [rewrite atan_0; lra|]. rewrite <- atan_0. left. apply atan_increasing. lra. }
      lra.
    + assert (0 < y / x). { unfold Rdiv. assert (/ x < 0) by (apply Rinv_lt_0_compat; lra). nra. }
      assert (0 < atan (y / x)). { rewrite <- atan_0. apply atan_increasing. lra. }
      lra.
  - destruct (Rlt_dec 0 y); [lra|]. destruct (Rlt_dec y 0); lra.
Qed.

(** ** Finite states *)
Lemma number_fin t : exists r, number_of K t = XF r.
Proof. unfold number_of. destruct (parse_number t) as [[neg v] k]. destruct neg; cbn; eauto. Qed.

Lemma words_fin l ws w : line_words K l ws -> In w ws -> exists r, w_number w = XF r.
Proof.
  intros (b & E & <-) I. unfold getBlock in E. destruct (_ <? _)%nat; [|discriminate].
  destruct (add_words_words K _ _ _ E) as (ws & EW & F). cbn in EW. rewrite EW in I. clear EW E.
  induction F as [|lt w0 l0 ws0 (_ & N & _) _ IH]; [destruct I|]. destruct I as [->|I]; [|auto].
  rewrite N. apply number_fin.
Qed.
Lemma value_fin l ws ch x : line_words K l ws -> has_value ws ch x -> exists r, x = XF r.
Proof. intros LW (w & I & _ & <-). eapply words_fin; eauto. Qed.

Lemma coord_out (x : list xr) i : (length x <= i)%nat -> coord_at K x i = XF 0.
Proof. intros H. unfold coord_at. rewrite nth_overflow by exact H. reflexivity. Qed.

Lemma to_mm_fin u r : to_mm K u (XF r) = XF (mm u r).
Proof. destruct u; unfold to_mm, mm; [reflexivity|]. cbn [nmul ndec x_num xmul]. do 3 f_equal. change (N.to_nat 1) with 1%nat. lra. Qed.

Lemma next_fin s i : finite_state s -> (i < 3)%nat -> exists r, next_axis K s i = XF r.
Proof.
  intros (FL & FC & FW) H. unfold next_axis. rewrite to_mm_in.
  assert (exists a, nthZ K (s_letters s) i = XF a) as (a & ->).
  { destruct i as [|[|[|]]]; [apply (FL LtX)|apply (FL LtY)|apply (FL LtZ)|lia]. }
  rewrite to_mm_fin. destruct (FW (s_coord s) i) as (o & O). unfold offset, coord_at in O. unfold nthZ at 1. rewrite O.
  destruct (s_dist s); [cbn; eauto|]. destruct (FC i) as (p & P). unfold coord_at in P. unfold nthZ. rewrite P. cbn. eauto.
Qed.

Lemma finite_line c m l c' m' : finite_state (g_st c) -> sized (g_st c) -> g_line K pi c m l = Ok (c', m') -> finite_state (g_st c').
Proof.
  intros FS SZ H. destruct (line_parse _ _ _ _ _ _ _ H) as (b & E & _).
  assert (LW : line_words K l (b_words b)) by (exists b; auto). set (ws := b_words b) in *.
  destruct (line_cases K pi c m l c' m' ws LW SZ H) as [(N & E1 & _)|(CO & _)]; [now rewrite E1|].
  destruct (letters_lemma K pi c m l c' m' ws LW CO SZ H) as (A1 & A2 & A3 & A4 & A5 & A6 & A7).
  destruct (sized_line K pi c m l c' m' SZ H) as (SZ' & WC).
  assert (FL' : forall g, exists r, letter K (g_st c') g = XF r).
  { destruct FS as (FL & _).
    assert (S7 : forall ch g, In (ch, g) [(cX, LtX); (cY, LtY); (cZ, LtZ); (cI, LtI); (cJ, LtJ); (cK, LtK); (cR, LtR)] -> exists r, letter K (g_st c') g = XF r).
    { intros ch g I. destruct (A1 ch g I) as [V|(-> & _)]; [eapply value_fin; eauto|apply FL]. }
    intros []; try (eapply S7; cbn; auto 10; fail).
    - rewrite A6. apply FL.
    - destruct A3 as [->|[V|(-> & _)]]; [apply FL|eapply value_fin; eauto|cbn; eauto].
    - destruct A4 as [->|V]; [apply FL|eapply value_fin; eauto].
    - destruct A5 as [(-> & _)|(V & _)]; [apply FL|eapply value_fin; eauto].
    - destruct A2 as [(V & _)|(-> & _)]; [eapply value_fin; eauto|apply FL].
    - rewrite A7. apply FL. }
  assert (FW' : forall co i, exists r, offset K (g_st c') co i = XF r).
  { intros co i. unfold offset. rewrite WC. apply FS. }
  split; [exact FL'|]. split; [|exact FW'].
  destruct (line_motion K pi c m l c' m' ws LW SZ H) as [(_ & -> & _)|(_ & _ & (sP & b' & t & KO) & _)]; [apply FS|].
  intros i. destruct (le_lt_dec 3 i) as [Hi|Hi]; [exists 0; apply coord_out; destruct SZ' as (_ & -> & _); exact Hi|].
  rewrite (k_cur' _ _ _ _ _ _ _ _ _ _ KO). unfold coord_at. fold (nthZ K (map (next_axis K sP) axes) i). rewrite nth_axes by exact Hi.
  apply next_fin; [|exact Hi]. split; [|split].
  - intros g. destruct (k_F _ _ _ _ _ _ _ _ _ _ KO) as [(V & _)|([(_ & V)|(_ & V)] & _)];
    (assert (Fd : exists r, letter K sP LtF = XF r) by (first [eapply value_fin; eauto; fail|rewrite V; first [apply FS|cbn; eauto]]));
    (assert (Dg : g = LtF \/ g <> LtF) by (destruct g; (left; reflexivity) || (right; discriminate)));
    (destruct Dg as [->|Ng]; [exact Fd|rewrite (k_letters _ _ _ _ _ _ _ _ _ _ KO g Ng); apply FL']).
  - rewrite (k_cur _ _ _ _ _ _ _ _ _ _ KO). apply FS.
  - intros co j. unfold offset. rewrite (k_wcs _ _ _ _ _ _ _ _ _ _ KO). apply FS.
Qed.

Lemma finite0 : finite_state (gstate0 K).
Proof.
  split; [|split].
  - intros []; cbn; eauto.
  - intros [|[|[|i]]]; cbn; eauto. destruct i; cbn; eauto.
  - intros []; cbn; intros [|[|[|i]]]; cbn; eauto; destruct i; cbn; eauto.
Qed.

(** ** Motions *)
Definition dl (p q : nat -> R) (i : nat) : R := q i - p i.

Lemma xsqrt_pos x : 0 <= x -> xsqrt (XF x) = XF (sqrt x).
Proof. intros H. cbn. destruct (Rlt_dec x 0); [lra|reflexivity]. Qed.

Lemma speed_fields (s : @gstate xr) (m0 : smotion xr) : let m1 := calcPeripherals K s (calcSpeedAndOrDuration K s m0) in
  sm_type m1 = sm_type m0 /\ sm_length m1 = sm_length m0 /\ sm_start m1 = sm_start m0 /\ sm_delta m1 = sm_delta m0 /\
  sm_arc0 m1 = sm_arc0 m0 /\ sm_arc1 m1 = sm_arc1 m0 /\ sm_center0 m1 = sm_center0 m0 /\ sm_center1 m1 = sm_center1 m0 /\
  sm_radius m1 = sm_radius m0 /\ sm_startAngle m1 = sm_startAngle m0 /\ sm_deltaAngle m1 = sm_deltaAngle m0.
Proof.
  cbv zeta. unfold calcPeripherals. destruct (s_spindle s); unfold calcSpeedAndOrDuration;
  (destruct (match sm_type m0 with | traverse => _ | _ => _ end)); repeat split.
Qed.

(** fields that a stage does not change *)
Definition same_geom (m m' : smotion xr) : Prop :=
  sm_type m' = sm_type m /\ sm_start m' = sm_start m /\ sm_delta m' = sm_delta m /\
  sm_arc0 m' = sm_arc0 m /\ sm_arc1 m' = sm_arc1 m /\ sm_center0 m' = sm_center0 m /\ sm_center1 m' = sm_center1 m /\
  sm_radius m' = sm_radius m.

Lemma length_fields (m0 : smotion xr) : let m1 := calcTrajectoryLength K m0 in
  same_geom m0 m1 /\ sm_startAngle m1 = sm_startAngle m0 /\ sm_deltaAngle m1 = sm_deltaAngle m0.
Proof. repeat split. Qed.
Lemma angles_fields S (m0 : smotion xr) : same_geom m0 (calcArcAngles K pi S m0).
Proof. unfold calcArcAngles. destruct (if is_helical _ then _ else _). repeat split. Qed.
Lemma angles_line S (m0 : smotion xr) : is_helical (sm_type m0) = false ->
  sm_startAngle (calcArcAngles K pi S m0) = XF 0 /\ sm_deltaAngle (calcArcAngles K pi S m0) = XF 0.
Proof. intros H. unfold calcArcAngles. rewrite H. split; reflexivity. Qed.

Lemma xadd_F a c : xadd (XF a) (XF c) = XF (a + c). Proof. reflexivity. Qed.
Lemma xsub_F a c : xsub (XF a) (XF c) = XF (a - c). Proof. reflexivity. Qed.
Lemma xmul_F a c : xmul (XF a) (XF c) = XF (a * c). Proof. reflexivity. Qed.
Lemma sqd_F a : sqd K (XF a) = XF (sq a). Proof. reflexivity. Qed.

Lemma length_value (m0 : smotion xr) r a d : sm_radius m0 = XF r -> sm_deltaAngle m0 = XF a ->
  (forall i, (i < 3)%nat -> nthZ K (sm_delta m0) i = XF (d i)) ->
  sm_length (calcTrajectoryLength K m0) = XF (sqrt (sq (r * a) +
     ((if is_arc (sm_arc0 m0) (sm_arc1 m0) 0 then 0 else sq (d 0%nat)) +
      (if is_arc (sm_arc0 m0) (sm_arc1 m0) 1 then 0 else sq (d 1%nat)) +
      (if is_arc (sm_arc0 m0) (sm_arc1 m0) 2 then 0 else sq (d 2%nat))))).
Proof.
  intros HR HA HD. unfold calcTrajectoryLength. cbn [sm_length]. rewrite HR, HA. unfold axes. cbn [fold_left].
  rewrite !HD by lia. rewrite !sqd_F. cbn [nmul nabs nadd nsqrt x_num xabs]. rewrite !xmul_F.
  pose proof (Rle_0_sqr (d 0%nat)). pose proof (Rle_0_sqr (d 1%nat)). pose proof (Rle_0_sqr (d 2%nat)).
  pose proof (Rle_0_sqr (r * a)). unfold Rsqr, sq in *.
  assert (EA : r * Rabs a * (r * Rabs a) = r * a * (r * a)).
  { transitivity (r * r * (Rabs a * Rabs a)); [ring|]. rewrite <- Rabs_mult, (Rabs_right (a * a)) by nra. ring. }
  destruct (is_arc _ _ 0), (is_arc _ _ 1), (is_arc _ _ 2); rewrite ?xadd_F, EA, xsqrt_pos by lra; do 2 f_equal; lra.
Qed.

Section M.
Variables (b : @block xr) (s : @gstate xr) (m m' : smotion xr) (p q : nat -> R).
Hypothesis FP : forall i, (i < 3)%nat -> nthZ K (s_cur s) i = XF (p i).
Hypothesis FQ : forall i, (i < 3)%nat -> next_axis K s i = XF (q i).

(** The parts of the result. *)
Lemma calc_parts : calcMotion K pi b s m = Ok (moved K s, m') ->
  exists m2, calcArcCenterAndRadius K b (st_next (map (next_axis K s) axes) s)
               (setArcAxisFromPlane (st_next (map (next_axis K s) axes) s) (snd (calcNextPosition K s m))) = Ok m2 /\
    m' = calcPeripherals K (st_next (map (next_axis K s) axes) s) (calcSpeedAndOrDuration K (st_next (map (next_axis K s) axes) s) (calcTrajectoryLength K
           (calcArcAngles K pi (st_next (map (next_axis K s) axes) s) m2))).
Proof.
  unfold calcMotion. intros H. cbn beta iota zeta delta [calcNextPosition] in H.
  destruct (calcArcCenterAndRadius K b _ _) as [m2|] eqn:E; [|discriminate]. cbn [rbind] in H. injection H as <-.
  exists m2. split; reflexivity.
Qed.

Lemma start_delta : calcMotion K pi b s m = Ok (moved K s, m') ->
  sm_type m' = sm_type m /\
  (forall i, (i < 3)%nat -> nthZ K (sm_start m') i = XF (p i)) /\
  (forall i, (i < 3)%nat -> nthZ K (sm_delta m') i = XF (dl p q i)).
Proof.
  intros H. destruct (calcMotion_fields K pi _ _ _ _ _ H) as (T & S1 & S2). split; [exact T|].
  rewrite S1, S2. split; intros i Hi; rewrite nth_axes by exact Hi; [now apply FP|].
  rewrite FP, FQ by exact Hi. reflexivity.
Qed.

(** not an arc *)
Lemma calc_line r : is_helical (sm_type m) = false -> hasOffset b = false -> hasRadius b = false -> sm_radius m = XF r ->
  calcMotion K pi b s m = Ok (moved K s, m') ->
  sm_arc0 m' = 3%nat /\ sm_arc1 m' = 3%nat /\ sm_radius m' = XF r /\
  sm_length m' = XF (sqrt (sq (dl p q 0) + sq (dl p q 1) + sq (dl p q 2))).
Proof.
  intros NH NO NR RR H. destruct (start_delta H) as (_ & _ & DE). destruct (calc_parts H) as (m2 & E & EM).
  unfold calcArcCenterAndRadius in E. rewrite NO, NR in E. injection E as E.
  assert (E2 : sm_type m2 = sm_type m /\ sm_arc0 m2 = 3%nat /\ sm_arc1 m2 = 3%nat /\ sm_radius m2 = sm_radius m).
  { rewrite <- E. unfold setArcAxisFromPlane, calcNextPosition. cbn [snd sm_type]. rewrite NH. repeat split. }
  clear E. destruct E2 as (E1 & E2 & E3 & E4).
  set (S := st_next (map (next_axis K s) axes) s) in *. clearbody S.
  set (m3 := calcArcAngles K pi S m2) in *.
  assert (A3 : same_geom m2 m3) by apply angles_fields.
  destruct (angles_line S m2 ltac:(now rewrite E1)) as (_ & DA). fold m3 in DA. clearbody m3.
  set (m4 := calcTrajectoryLength K m3) in *.
  destruct (length_fields m3) as (A4 & _). fold m4 in A4.
  destruct (speed_fields S m4) as (B1 & B2 & B3 & B4 & B5 & B6 & B7 & B8 & B9 & _). rewrite <- EM in *.
  destruct A3 as (_ & _ & A3d & A30 & A31 & _ & _ & A3r). destruct A4 as (_ & _ & A4d & A40 & A41 & _ & _ & A4r).
  split; [congruence|]. split; [congruence|]. split; [congruence|]. rewrite B2. unfold m4.
  rewrite (length_value m3 r 0 (dl p q)); [|congruence|exact DA|].
  2:{ intros i Hi. rewrite <- A4d, <- B4. now apply DE. }
  rewrite A30, A31, E2, E3. cbn [is_arc Nat.eqb orb]. do 2 f_equal. unfold sq. ring.
Qed.

(** an arc *)
Definition sweep (cw : bool) (sa ea : R) : R :=
  if cw then (if rleb 0 (ea - sa) then ea - sa - 2 * PI else ea - sa)
  else (if rleb (ea - sa) 0 then ea - sa + 2 * PI else ea - sa).

Lemma angles_arc S (m0 : smotion xr) cw c0 c1 x0 x1 y0 y1 : is_helical (sm_type m0) = true -> is_cw (sm_type m0) = cw ->
  sm_center0 m0 = XF c0 -> sm_center1 m0 = XF c1 ->
  nthZ K (s_cur S) (sm_arc0 m0) = XF x0 -> nthZ K (s_cur S) (sm_arc1 m0) = XF x1 ->
  nthZ K (s_next S) (sm_arc0 m0) = XF y0 -> nthZ K (s_next S) (sm_arc1 m0) = XF y1 ->
  let sa := ratan2 (x1 - c1) (x0 - c0) in
  sm_startAngle (calcArcAngles K pi S m0) = XF sa /\
  sm_deltaAngle (calcArcAngles K pi S m0) = XF (sweep cw sa (ratan2 (y1 - c1) (y0 - c0))).
Proof.
  intros H EC C0 C1 X0 X1 Y0 Y1. cbv zeta. unfold calcArcAngles. rewrite H. cbn [sm_startAngle sm_deltaAngle].
  rewrite C0, C1, X0, X1, Y0, Y1. cbn [nsub natan2 x_num]. rewrite !xsub_F. cbn [xatan2]. rewrite !xsub_F.
  split; [reflexivity|]. unfold sweep.
  assert (L : forall a c, nleb K (XF a) (XF c) = rleb a c).
  { intros a c. change (nleb K (XF a) (XF c)) with (rltb a c || reqb a c)%bool. unfold rltb, reqb, rleb. destruct (Rlt_dec a c), (Req_EM_T a c), (Rle_dec a c) as [LE|]; auto; exfalso; try (destruct LE; contradiction); lra. }
  change (nofZ K 0) with (XF 0). change (nmul K (nofZ K 2) pi) with (XF (2 * PI)).
  destruct (sm_type m0); try discriminate H; cbn [is_cw] in EC; subst cw; rewrite L.
  - destruct (rleb 0 _); [cbn [nsub x_num]; now rewrite xsub_F|reflexivity].
  - destruct (rleb _ 0); [cbn [nadd x_num]; now rewrite xadd_F|reflexivity].
Qed.

Lemma calc_arc cw c0 c1 r a0 a1 : is_helical (sm_type m) = true -> is_cw (sm_type m) = cw -> arc_axes (s_plane s) = (a0, a1) ->
  calcMotion K pi b s m = Ok (moved K s, m') ->
  (forall m2, calcArcCenterAndRadius K b (st_next (map (next_axis K s) axes) s)
               (setArcAxisFromPlane (st_next (map (next_axis K s) axes) s) (snd (calcNextPosition K s m))) = Ok m2 ->
     same_geom (sm_with_arc (setArcAxisFromPlane (st_next (map (next_axis K s) axes) s) (snd (calcNextPosition K s m))) (XF c0) (XF c1) (XF r)) m2) ->
  let sa := ratan2 (p a1 - c1) (p a0 - c0) in
  let da := sweep cw sa (ratan2 (q a1 - c1) (q a0 - c0)) in
  sm_arc0 m' = a0 /\ sm_arc1 m' = a1 /\ sm_center0 m' = XF c0 /\ sm_center1 m' = XF c1 /\ sm_radius m' = XF r /\
  sm_startAngle m' = XF sa /\ sm_deltaAngle m' = XF da /\
  sm_length m' = XF (sqrt (sq (r * da) +
     ((if is_arc a0 a1 0 then 0 else sq (dl p q 0)) + (if is_arc a0 a1 1 then 0 else sq (dl p q 1)) +
      (if is_arc a0 a1 2 then 0 else sq (dl p q 2))))).
Proof.
  intros HH EC EA H CC. cbv zeta. destruct (start_delta H) as (_ & _ & DE). destruct (calc_parts H) as (m2 & E & EM).
  specialize (CC m2 E). clear E.
  destruct CC as (C1 & C2 & C3 & C4 & C5 & C6 & C7 & C8).
  unfold sm_with_arc, setArcAxisFromPlane, calcNextPosition in C1, C2, C3, C4, C5, C6, C7, C8. cbn [snd sm_type] in C1, C2, C3, C4, C5, C6, C7, C8. rewrite HH in C1, C2, C3, C4, C5, C6, C7, C8.
  change (plane_axes (s_plane (st_next (map (next_axis K s) axes) s))) with (arc_axes (s_plane s)) in C1, C2, C3, C4, C5, C6, C7, C8.
  rewrite EA in C1, C2, C3, C4, C5, C6, C7, C8.
  cbn [sm_type sm_arc0 sm_arc1 sm_center0 sm_center1 sm_radius] in C1, C4, C5, C6, C7, C8. clear C2 C3.
  assert (A03 : (a0 < 3 /\ a1 < 3)%nat).
  { unfold arc_axes in EA. destruct (s_plane s); injection EA as <- <-; lia. }
  assert (SC : forall i, (i < 3)%nat -> nthZ K (s_cur (st_next (map (next_axis K s) axes) s)) i = XF (p i)) by (intros; now apply FP).
  assert (SN : forall i, (i < 3)%nat -> nthZ K (s_next (st_next (map (next_axis K s) axes) s)) i = XF (q i)).
  { intros i Hi. cbn [s_next st_next]. rewrite nth_axes by exact Hi. now apply FQ. }
  set (S := st_next (map (next_axis K s) axes) s) in *. clearbody S.
  set (m3 := calcArcAngles K pi S m2) in *.
  assert (A3 : same_geom m2 m3) by apply angles_fields.
  destruct (angles_arc S m2 cw c0 c1 (p a0) (p a1) (q a0) (q a1)) as (SA & DA);
    rewrite ?C1, ?C4, ?C5; auto; try (apply SC; lia); try (apply SN; lia).
  fold m3 in SA, DA. clearbody m3.
  set (m4 := calcTrajectoryLength K m3) in *.
  destruct (length_fields m3) as (A4 & A4s & A4a). fold m4 in A4, A4s, A4a.
  destruct (speed_fields S m4) as (B1 & B2 & B3 & B4 & B5 & B6 & B7 & B8 & B9 & B10 & B11). rewrite <- EM in *.
  destruct A3 as (_ & _ & A3d & A30 & A31 & A3c0 & A3c1 & A3r). destruct A4 as (_ & _ & A4d & A40 & A41 & A4c0 & A4c1 & A4r).
  split; [congruence|]. split; [congruence|]. split; [congruence|]. split; [congruence|]. split; [congruence|].
  split; [congruence|]. split; [congruence|]. rewrite B2. unfold m4.
  erewrite (length_value m3 r _ (dl p q)); [|congruence|exact DA|].
  2:{ intros i Hi. rewrite <- A4d, <- B4. now apply DE. }
  rewrite A30, A31, C4, C5. reflexivity.
Qed.

(** centre by offsets *)
Lemma center_offset a0 a1 o0 o1 : is_helical (sm_type m) = true -> arc_axes (s_plane s) = (a0, a1) -> hasOffset b = true ->
  letter K s (snd (offset_letter a0)) = XF o0 -> letter K s (snd (offset_letter a1)) = XF o1 ->
  let c0 := p a0 + mm (s_unit s) o0 in let c1 := p a1 + mm (s_unit s) o1 in
  forall m2, calcArcCenterAndRadius K b (st_next (map (next_axis K s) axes) s)
               (setArcAxisFromPlane (st_next (map (next_axis K s) axes) s) (snd (calcNextPosition K s m))) = Ok m2 ->
     same_geom (sm_with_arc (setArcAxisFromPlane (st_next (map (next_axis K s) axes) s) (snd (calcNextPosition K s m)))
        (XF c0) (XF c1) (XF (sqrt (dist2 (p a0) (p a1) c0 c1)))) m2.
Proof.
  intros HH EA HO L0 L1. cbv zeta. intros m2 E. unfold calcArcCenterAndRadius in E. rewrite HO in E.
  set (S := st_next (map (next_axis K s) axes) s) in *.
  assert (A03 : (a0 < 3 /\ a1 < 3)%nat).
  { unfold arc_axes in EA. destruct (s_plane s); injection EA as <- <-; lia. }
  set (mA := setArcAxisFromPlane S (snd (calcNextPosition K s m))) in *.
  assert (M0 : sm_arc0 mA = a0 /\ sm_arc1 mA = a1).
  { unfold mA, setArcAxisFromPlane, calcNextPosition. cbn [snd sm_type]. rewrite HH.
    change (plane_axes (s_plane S)) with (arc_axes (s_plane s)). rewrite EA. split; reflexivity. }
  destruct M0 as (M0 & M1). clearbody mA. rewrite M0, M1 in E.
  assert (T : ((a0 <? 3)%nat && (a1 <? 3)%nat)%bool = true) by (rewrite andb_true_iff, !Nat.ltb_lt; lia). rewrite T in E. clear T.
  assert (CA : forall a o, (a < 3)%nat -> letter K s (snd (offset_letter a)) = XF o -> center_axis K S a = XF (p a + mm (s_unit s) o)).
  { intros a o Ha Lo. unfold center_axis. change (s_cur S) with (s_cur s). rewrite FP by exact Ha.
    change (s_letters S) with (s_letters s).
    assert (X : nthZ K (s_letters s) (a + 3) = letter K s (snd (offset_letter a))) by (destruct a as [|[|[|]]]; [reflexivity..|lia]).
    rewrite X, Lo. rewrite to_mm_in. change (s_unit S) with (s_unit s). rewrite to_mm_fin. reflexivity. }
  rewrite (CA a0 o0), (CA a1 o1) in E by (assumption || lia). change (s_cur S) with (s_cur s) in E. rewrite !FP in E by lia.
  cbn [nsub nsqrt nadd x_num] in E. rewrite !xsub_F, !sqd_F in E. change (nofZ K 0) with (XF 0) in E. rewrite !xadd_F in E.
  rewrite xsqrt_pos in E.
  2:{ unfold sq. pose proof (Rle_0_sqr (p a0 - (p a0 + mm (s_unit s) o0))). pose proof (Rle_0_sqr (p a1 - (p a1 + mm (s_unit s) o1))). unfold Rsqr in *. lra. }
  injection E as <-. unfold same_geom, sm_with_arc. cbn [sm_type sm_start sm_delta sm_arc0 sm_arc1 sm_center0 sm_center1 sm_radius].
  repeat (split; [reflexivity|]). do 2 f_equal. unfold dist2, sq. ring.
Qed.

(** centre by radius *)
Lemma center_radius cw a0 a1 r : is_helical (sm_type m) = true -> is_cw (sm_type m) = cw -> arc_axes (s_plane s) = (a0, a1) ->
  hasOffset b = false -> hasRadius b = true -> letter K s LtR = XF r ->
  let R := mm (s_unit s) r in
  let d0 := dl p q a0 in let d1 := dl p q a1 in
  0 < sq d0 + sq d1 <= 4 * sq R ->
  let h := sqrt (4 * sq R - sq d0 - sq d1) / 2 / sqrt (sq d0 + sq d1) in
  let v := if Bool.eqb cw (rltb R 0) then h else - h in
  forall m2, calcArcCenterAndRadius K b (st_next (map (next_axis K s) axes) s)
               (setArcAxisFromPlane (st_next (map (next_axis K s) axes) s) (snd (calcNextPosition K s m))) = Ok m2 ->
     same_geom (sm_with_arc (setArcAxisFromPlane (st_next (map (next_axis K s) axes) s) (snd (calcNextPosition K s m)))
        (XF (p a0 + (d0 / 2 - d1 * v))) (XF (p a1 + (d1 / 2 + d0 * v))) (XF (Rabs R))) m2.
Proof.
  intros HH EC EA HO HR LR. cbv zeta. intros CH m2 E.
  set (R := mm (s_unit s) r) in *. set (d0 := dl p q a0) in *. set (d1 := dl p q a1) in *.
  unfold calcArcCenterAndRadius in E. rewrite HO, HR in E.
  set (S := st_next (map (next_axis K s) axes) s) in *.
  assert (A03 : (a0 < 3 /\ a1 < 3)%nat).
  { unfold arc_axes in EA. destruct (s_plane s); injection EA as <- <-; lia. }
  set (mA := setArcAxisFromPlane S (snd (calcNextPosition K s m))) in *.
  assert (M0 : sm_arc0 mA = a0 /\ sm_arc1 mA = a1 /\ sm_type mA = sm_type m /\
    (forall i, (i < 3)%nat -> nthZ K (sm_delta mA) i = XF (dl p q i))).
  { unfold mA, setArcAxisFromPlane, calcNextPosition. cbn [snd sm_type]. rewrite HH.
    change (plane_axes (s_plane S)) with (arc_axes (s_plane s)). rewrite EA. cbn [sm_arc0 sm_arc1 sm_type sm_delta].
    repeat (split; [reflexivity|]). intros i Hi. rewrite !nth_axes by exact Hi. rewrite FP, FQ by exact Hi. reflexivity. }
  destruct M0 as (M0 & M1 & MT & MD). clearbody mA. rewrite M0, M1 in E.
  assert (T : ((a0 <? 3)%nat && (a1 <? 3)%nat)%bool = true) by (rewrite andb_true_iff, !Nat.ltb_lt; lia). rewrite T in E. clear T.
  rewrite !MD in E by lia. fold d0 d1 in E. change (letter K S LtR) with (letter K s LtR) in E. rewrite LR, to_mm_in in E.
  change (s_unit S) with (s_unit s) in E. rewrite to_mm_fin in E. fold R in E.
  change (s_cur S) with (s_cur s) in E. rewrite !FP in E by lia.
  change (ndec K 5 1) with (XF (IZR 5 / 10 ^ N.to_nat 1)) in E. change (N.to_nat 1) with 1%nat in E.
  replace (5 / 10 ^ 1) with (1 / 2) in E by (cbn; lra).
  change (nofZ K 4) with (XF 4) in E. change (nofZ K 0) with (XF 0) in E.
  rewrite !sqd_F in E. cbn [nsub nsqrt nadd nmul ndiv nopp nltb x_num] in E. rewrite !xmul_F, !xadd_F, !xsub_F in E.
  rewrite !xsqrt_pos in E by (unfold sq in *; lra). rewrite !xmul_F in E.
  assert (SD : 0 < sqrt (sq d0 + sq d1)) by (apply sqrt_lt_R0; lra).
  replace (sqrt (4 * R * R - sq d0 - sq d1)) with (sqrt (4 * sq R - sq d0 - sq d1)) in E by (f_equal; unfold sq; ring).
  set (H := sqrt (4 * sq R - sq d0 - sq d1)) in *. set (Dd := sqrt (sq d0 + sq d1)) in *.
  assert (DV : xdiv (XF (H * (1 / 2))) (XF Dd) = XF (H / 2 / Dd)).
  { cbn [xdiv]. destruct (Req_EM_T Dd 0); [lra|]. f_equal. field. lra. }
  rewrite DV in E. rewrite MT in E. cbn [xltb] in E.
  assert (VV : (match sm_type m with feedHelicalCW => xopp (XF (H / 2 / Dd)) | _ => XF (H / 2 / Dd) end) = XF (if cw then - (H / 2 / Dd) else H / 2 / Dd)).
  { rewrite <- EC. destruct (sm_type m); reflexivity. }
  rewrite VV in E. clear VV. cbn [xopp] in E.
  set (v := if Bool.eqb cw (rltb R 0) then H / 2 / Dd else - (H / 2 / Dd)).
  assert (E' : Ok m2 = Ok (sm_with_arc mA (XF (p a0 + (d0 / 2 - d1 * v))) (XF (p a1 + (d1 / 2 + d0 * v))) (XF (Rabs R)))).
  { rewrite <- E. clear E. unfold v, rltb. destruct (Rlt_dec R 0) as [RN|RN]; rewrite !xmul_F, !xsub_F, !xadd_F; f_equal; f_equal; f_equal;
    destruct cw; cbn [Bool.eqb]; rewrite ?(Rabs_left R RN); rewrite ?(Rabs_right R) by lra; try lra; field; lra. }
  injection E' as ->. unfold same_geom. repeat split.
Qed.
End M.
