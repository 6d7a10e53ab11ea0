(** Proofs about gcode.cpp over the reals: the paths and speeds of parsed motions. *)
Require Import List Arith NArith ZArith Bool Lia Reals Lra Psatz.
From Verif Require Import Base Num NumR MotionModel CtrlModel GcodeModel GcodeSpec GcodeRSpec GeomSpec
  GBlockProofs GParseProofs GHeadProofs GStageProofs GMeaningProofs GeomProofs GArcProofs.
Import ListNotations.
Open Scope R_scope.

Local Notation K := x_num.
Local Notation pi := (XF PI).

Definition fin (x : xr) : R := match x with XF r => r | _ => 0 end.

Lemma offset_words (b : @block xr) : counted b ->
  (hasOffset b = true <-> exists ch, In ch [cI; cJ; cK] /\ has_letter (b_words b) ch) /\
  (hasRadius b = true <-> has_letter (b_words b) cR).
Proof.
  intros (_ & _ & _ & _ & _ & _ & CO & CR). unfold hasOffset, hasRadius. rewrite CO, CR, !N.ltb_lt, !cnt_pos. unfold tst.
  split; split.
  - intros (w & I & E). apply let_in_spec in E. exists (w_letter w). split; [exact E|]. exists w. auto.
  - intros (ch & I & w & Iw & E). exists w. split; [exact Iw|]. apply let_in_spec. now rewrite E.
  - intros (w & I & E). apply let_in_spec in E. destruct E as [E|[]]. exists w. auto.
  - intros (w & Iw & E). exists w. split; [exact Iw|]. apply let_in_spec. rewrite E. now left.
Qed.

(** What the calculation starts from. *)
Record set_up (c : gcode) (m : smotion xr) (c' : gcode) (m' : smotion xr) (ws : list word) (sP : gstate) (b : block) (p q : nat -> R) : Prop := {
  u_cons : consistent ws;
  u_ok : calc_ok K pi ws (g_st c) (g_st c') sP b (sm_type m') (sm_with_type mt_none m) m';
  u_p : at_mm (s_cur (g_st c)) p;
  u_q : at_mm (s_cur (g_st c')) q;
  u_P : forall i, (i < 3)%nat -> nthZ K (s_cur sP) i = XF (p i);
  u_Q : forall i, (i < 3)%nat -> next_axis K sP i = XF (q i) }.

Lemma line_setup c m l c' m' ws : line_words K l ws -> sized (g_st c) -> finite_state (g_st c) ->
  g_line K pi c m l = Ok (c', m') -> made_motion c' m' ->
  exists sP b p q, set_up c m c' m' ws sP b p q.
Proof.
  intros LW SZ FS H MM.
  pose proof (finite_line _ _ _ _ _ FS SZ H) as FS'.
  destruct (line_motion K pi c m l c' m' ws LW SZ H) as [(A & _)|(_ & CO & (sP & b & t & KO) & _)]; [contradiction|].
  assert (AT : forall s, finite_state s -> at_mm (s_cur s) (fun i => fin (coord_at K (s_cur s) i))).
  { intros s (_ & F & _) i _. destruct (F i) as (r & ->). reflexivity. }
  exists sP, b. eexists. eexists. split.
  - exact CO.
  - assert (sm_type m' = t) as ->; [|exact KO].
    destruct (calcMotion_fields K pi _ _ _ _ _ (k_calc _ _ _ _ _ _ _ _ _ _ KO)) as (T & _). exact T.
  - apply AT, FS.
  - apply AT, FS'.
  - intros i Hi. rewrite (k_cur _ _ _ _ _ _ _ _ _ _ KO). exact (AT _ FS i Hi).
  - intros i Hi. transitivity (coord_at K (s_cur (g_st c')) i); [|exact (AT _ FS' i Hi)]. rewrite (k_cur' _ _ _ _ _ _ _ _ _ _ KO).
    symmetry. exact (nth_axes K (next_axis K sP) i Hi).
Qed.

(** *** Straight motions *)
Lemma straight_no_center b (s s' : @gstate xr) m m' : is_helical (sm_type m) = false ->
  calcMotion K pi b s m = Ok (s', m') -> hasOffset b = false /\ hasRadius b = false.
Proof.
  intros NH H. unfold calcMotion, calcNextPosition in H. cbn beta iota zeta in H. unfold calcArcCenterAndRadius in H.
  set (m1 := setArcAxisFromPlane _ _) in H.
  assert (A : sm_arc0 m1 = 3%nat).
  { unfold m1, setArcAxisFromPlane. cbn [sm_type]. rewrite NH. reflexivity. }
  rewrite A in H. clearbody m1. cbn [Nat.ltb Nat.leb andb] in H.
  destruct (hasOffset b); [discriminate|]. destruct (hasRadius b); [discriminate|]. auto.
Qed.

Lemma is_helical_arc t : is_helical t = true <-> is_arc_type t.
Proof. unfold is_arc_type. destruct t; cbn; intuition discriminate. Qed.
Lemma is_helical_line t : is_line_type t -> is_helical t = false.
Proof. intros [-> | ->]; reflexivity. Qed.

Lemma straight_path (m' : smotion xr) p q : sm_arc0 m' = 3%nat -> sm_arc1 m' = 3%nat ->
  (forall i, (i < 3)%nat -> nthZ K (sm_start m') i = XF (p i)) ->
  (forall i, (i < 3)%nat -> nthZ K (sm_delta m') i = XF (dl p q i)) ->
  let L := sqrt (sq (dl p q 0) + sq (dl p q 1) + sq (dl p q 2)) in
  sm_length m' = XF L -> 0 < L -> exists P, goes m' P p q /\ pa_arc P = None.
Proof.
  intros A0 A1 ST DE L EL LP. exists (mkPath L p (dl p q) None). split; [|reflexivity].
  split; [|split].
  - split; [exact EL|]. split; [exact ST|]. split; [exact DE|]. split; assumption.
  - split; [exact LP|]. cbn [pa_arc pa_len on_arc pa_delta]. unfold sq at 1. unfold L. apply sqrt_sqrt.
    pose proof (Rle_0_sqr (dl p q 0)). pose proof (Rle_0_sqr (dl p q 1)). pose proof (Rle_0_sqr (dl p q 2)). unfold Rsqr, sq in *. lra.
  - intros i Hi. destruct (path_ends (mkPath L p (dl p q) None) LP) as (E & _). destruct (E i eq_refl) as (E1 & E2).
    cbn [pa_start pa_delta] in *. split; [exact E1|]. rewrite E2. unfold dl. ring.
Qed.

Lemma line_lemma c m l c' m' : sized (g_st c) -> finite_state (g_st c) -> finite_radius m ->
  g_line K pi c m l = Ok (c', m') -> made_motion c' m' -> is_line_type (sm_type m') ->
  exists p q, at_mm (s_cur (g_st c)) p /\ at_mm (s_cur (g_st c')) q /\
    sm_length m' = XF (distance p q) /\ (0 < distance p q -> exists P, goes m' P p q /\ pa_arc P = None).
Proof.
  intros SZ FS (r & FR) H MM LT. destruct (line_parse _ _ _ _ _ _ _ H) as (b0 & E & _).
  destruct (line_setup c m l c' m' (b_words b0) ltac:(exists b0; auto) SZ FS H MM) as (sP & b & p & q & U).
  exists p, q. split; [apply (u_p _ _ _ _ _ _ _ _ _ U)|]. split; [apply (u_q _ _ _ _ _ _ _ _ _ U)|].
  pose proof (k_calc _ _ _ _ _ _ _ _ _ _ (u_ok _ _ _ _ _ _ _ _ _ U)) as CM.
  set (m0 := sm_with_type (sm_type m') (sm_with_type mt_none m)) in CM.
  assert (NH : is_helical (sm_type m0) = false) by (apply is_helical_line; exact LT).
  assert (R0 : sm_radius m0 = XF r) by exact FR.
  destruct (straight_no_center _ _ _ _ _ NH CM) as (NO & NR).
  clearbody m0.
  destruct (calc_line b sP m0 m' p q (u_P _ _ _ _ _ _ _ _ _ U) (u_Q _ _ _ _ _ _ _ _ _ U) r NH NO NR R0 CM) as (A0 & A1 & _ & EL).
  destruct (start_delta b sP m0 m' p q (u_P _ _ _ _ _ _ _ _ _ U) (u_Q _ _ _ _ _ _ _ _ _ U) CM) as (_ & ST & DE).
  split; [exact EL|]. intros LP. exact (straight_path m' p q A0 A1 ST DE EL LP).
Qed.

Lemma inj_ok {A} (x y : A) : Ok x = Ok y -> x = y. Proof. now intros [=]. Qed.

(** *** The radius always is a number *)
Lemma radius_calc b (s s' : @gstate xr) m m' : finite_state s -> finite_radius m -> calcMotion K pi b s m = Ok (s', m') -> finite_radius m'.
Proof.
  intros FS (r & FR) H. unfold calcMotion in H. cbn beta iota zeta delta [calcNextPosition] in H.
  set (mA := setArcAxisFromPlane _ _) in H. set (S := st_next _ _) in *.
  assert (FS' : finite_state S) by exact FS.
  assert (RA : sm_radius mA = XF r).
  { unfold mA, setArcAxisFromPlane. cbn [sm_type]. destruct (is_helical _); [destruct (plane_axes _)|]; exact FR. }
  clearbody mA. clearbody S.
  destruct (calcArcCenterAndRadius K b S mA) as [m2|] eqn:E; [|discriminate]. cbn [rbind] in H. injection H as _ <-.
  assert (R2 : finite_radius m2).
  { unfold calcArcCenterAndRadius in E. destruct (hasOffset b); [|destruct (hasRadius b)].
    - destruct (_ && _)%bool eqn:B; [|discriminate]. apply andb_true_iff in B. rewrite !Nat.ltb_lt in B. destruct B as (B0 & B1).
      assert (FA : forall a, (a < 3)%nat -> exists x y, nthZ K (s_cur S) a = XF x /\ center_axis K S a = XF y).
      { intros a Ha. destruct FS' as (FL & FC & _). destruct (FC a) as (x & X). exists x.
        change (coord_at K (s_cur S) a) with (nthZ K (s_cur S) a) in X. unfold center_axis. rewrite X.
        assert (exists o, nthZ K (s_letters S) (a + 3) = XF o) as (o & ->).
        { destruct a as [|[|[|]]]; [apply (FL LtI)|apply (FL LtJ)|apply (FL LtK)|lia]. }
        rewrite to_mm_in, to_mm_fin. eexists. split; reflexivity. }
      destruct (FA _ B0) as (x0 & y0 & X0 & Y0). destruct (FA _ B1) as (x1 & y1 & X1 & Y1). rewrite Y0, Y1, X0, X1 in E.
      cbn [nsub nsqrt nadd x_num] in E. rewrite !xsub_F, !sqd_F in E. change (nofZ K 0) with (XF 0) in E. rewrite !xadd_F in E.
      rewrite xsqrt_pos in E; [|pose proof (Rle_0_sqr (x0 - y0)); pose proof (Rle_0_sqr (x1 - y1)); unfold Rsqr, sq in *; lra].
      injection E as <-. unfold finite_radius, sm_with_arc. cbn [sm_radius]. eauto.
    - destruct (_ && _)%bool; [|discriminate]. destruct FS' as (FL & _). destruct (FL LtR) as (x & X).
      rewrite X, to_mm_in, to_mm_fin in E. cbn beta iota zeta in E.
      destruct (nltb K _ _) in E; cbn beta iota in E; apply inj_ok in E; rewrite <- E;
      [exists (- mm (s_unit S) x)|exists (mm (s_unit S) x)]; unfold sm_with_arc; cbn [sm_radius]; reflexivity.
    - injection E as <-. exists r. exact RA. }
  destruct R2 as (r2 & R2).
  set (m3 := calcArcAngles K pi S m2).
  assert (A3 : same_geom m2 m3) by apply angles_fields. clearbody m3.
  destruct (length_fields m3) as (A4 & _). destruct (speed_fields S (calcTrajectoryLength K m3)) as (_ & _ & _ & _ & _ & _ & _ & _ & B & _).
  exists r2. rewrite B. destruct A4 as (_ & _ & _ & _ & _ & _ & _ & ->). destruct A3 as (_ & _ & _ & _ & _ & _ & _ & ->). exact R2.
Qed.

Lemma calc_finite c m l c' m' ws sP b t m0 : line_words K l ws -> sized (g_st c) -> finite_state (g_st c) ->
  g_line K pi c m l = Ok (c', m') -> calc_ok K pi ws (g_st c) (g_st c') sP b t m0 m' -> finite_state sP.
Proof.
  intros LW SZ FS H KO. destruct (finite_line _ _ _ _ _ FS SZ H) as (FL' & FC' & FW').
  split; [|split].
  - intros g. destruct (k_F _ _ _ _ _ _ _ _ _ _ KO) as [(V & _)|([(_ & V)|(_ & V)] & _)];
    (assert (Fd : exists r, letter K sP LtF = XF r) by (first [eapply value_fin; eauto; fail|rewrite V; first [apply FS|cbn; eauto]]));
    (assert (Dg : g = LtF \/ g <> LtF) by (destruct g; (left; reflexivity) || (right; discriminate)));
    (destruct Dg as [->|Ng]; [exact Fd|rewrite (k_letters _ _ _ _ _ _ _ _ _ _ KO g Ng); apply FL']).
  - rewrite (k_cur _ _ _ _ _ _ _ _ _ _ KO). apply FS.
  - intros co j. unfold offset. rewrite (k_wcs _ _ _ _ _ _ _ _ _ _ KO). apply FS.
Qed.

Lemma mtype_some g : mtype g <> mt_none. Proof. destruct g; discriminate. Qed.

Lemma radius_line c m l c' m' : sized (g_st c) -> finite_state (g_st c) -> finite_radius m ->
  g_line K pi c m l = Ok (c', m') -> finite_radius m'.
Proof.
  intros SZ FS FR H. destruct (line_parse _ _ _ _ _ _ _ H) as (b0 & E & _).
  assert (LW : line_words K l (b_words b0)) by (exists b0; auto).
  assert (MADE : made_motion c' m' -> finite_radius m').
  { intros MM. destruct (line_motion K pi c m l c' m' _ LW SZ H) as [(A & _)|(_ & CO & (sP & b & t & KO) & _)]; [contradiction|].
    apply (radius_calc _ _ _ (sm_with_type t (sm_with_type mt_none m)) _ (calc_finite _ _ _ _ _ _ _ _ _ _ LW SZ FS H KO) FR (k_calc _ _ _ _ _ _ _ _ _ _ KO)). }
  destruct (line_cases K pi c m l c' m' _ LW SZ H) as [(_ & _ & _ & -> & _)|(_ & b & c0 & cH & cM & _ & _ & _ & _ & _ & _ & O)]; [exact FR|].
  destruct O as [x c1 m1 _ _ _ CM _ R|g c1 m1 _ _ _ CM _ R|g s1 c1 m1 _ _ _ _ _ CM _ _ _ R|c1 m1 _ _ _ _ _ _ _ _ EM|c1 m1 _ _ _ _ _ _ _ EM].
  1-3: apply MADE; destruct (calcMotion_fields K pi _ _ _ _ _ CM) as (T & _); split; rewrite ?R, ?T; try discriminate; apply mtype_some.
  - rewrite EM. exact FR.
  - rewrite EM. exact FR.
Qed.

(** *** Arcs *)
Lemma polar c0 c1 x0 x1 : let r := sqrt (dist2 c0 c1 x0 x1) in let a := ratan2 (x1 - c1) (x0 - c0) in
  x0 = c0 + r * cos a /\ x1 = c1 + r * sin a.
Proof.
  cbv zeta. unfold dist2, sq. set (u := x0 - c0). set (v := x1 - c1).
  assert (x0 = c0 + u /\ x1 = c1 + v) as (E0 & E1) by (unfold u, v; lra).
  destruct (Rlt_dec 0 (u * u + v * v)) as [P|P].
  - destruct (ratan2_spec v u P) as (A & B). rewrite A, B. auto.
  - assert (u * u + v * v = 0) as ZZ by (pose proof (Rle_0_sqr u); pose proof (Rle_0_sqr v); unfold Rsqr in *; lra).
    assert (u = 0 /\ v = 0) as (Zu & Zv) by (split; nra). rewrite ZZ, sqrt_0. lra.
Qed.

Lemma cos_turn x : cos (x - 2 * PI) = cos x /\ sin (x - 2 * PI) = sin x /\ cos (x + 2 * PI) = cos x /\ sin (x + 2 * PI) = sin x.
Proof.
  assert (forall y, cos (y + 2 * PI) = cos y /\ sin (y + 2 * PI) = sin y) as T.
  { intros y. pose proof (cos_period y 1) as C. pose proof (sin_period y 1) as D. cbn [INR] in C, D.
    replace (y + 2 * 1 * PI) with (y + 2 * PI) in C, D by ring. auto. }
  destruct (T x) as (A & B). destruct (T (x - 2 * PI)) as (C & E). replace (x - 2 * PI + 2 * PI) with x in C, E by ring. auto.
Qed.

Lemma sweep_spec cw sa ea : - PI < sa <= PI -> - PI < ea <= PI ->
  let da := sweep cw sa ea in
  (if cw then - (2 * PI) <= da < 0 else 0 < da <= 2 * PI) /\ cos (sa + da) = cos ea /\ sin (sa + da) = sin ea /\
  (sa = ea -> Rabs da = 2 * PI).
Proof.
  intros A B. cbv zeta. pose proof PI_RGT_0. unfold sweep, rleb. destruct (cos_turn ea) as (T1 & T2 & T3 & T4). destruct cw.
  - destruct (Rle_dec 0 (ea - sa)).
    + replace (sa + (ea - sa - 2 * PI)) with (ea - 2 * PI) by ring. repeat (split; [lra|]). intros ->.
      replace (ea - ea - 2 * PI) with (- (2 * PI)) by ring. rewrite Rabs_Ropp. apply Rabs_right. lra.
    + replace (sa + (ea - sa)) with ea by ring. repeat (split; [lra|]). intros ->. lra.
  - destruct (Rle_dec (ea - sa) 0).
    + replace (sa + (ea - sa + 2 * PI)) with (ea + 2 * PI) by ring. repeat (split; [lra|]). intros ->.
      replace (ea - ea + 2 * PI) with (2 * PI) by ring. apply Rabs_right. lra.
    + replace (sa + (ea - sa)) with ea by ring. repeat (split; [lra|]). intros ->. lra.
Qed.

Lemma swept_sweep cw c0 c1 p0 p1 q0 q1 : let sa := ratan2 (p1 - c1) (p0 - c0) in
  let da := sweep cw sa (ratan2 (q1 - c1) (q0 - c0)) in
  swept cw c0 c1 p0 p1 q0 q1 sa da /\ (p0 = q0 -> p1 = q1 -> Rabs da = 2 * PI).
Proof.
  cbv zeta. pose proof (ratan2_range (p1 - c1) (p0 - c0)) as RP. pose proof (ratan2_range (q1 - c1) (q0 - c0)) as RQ.
  pose proof (polar c0 c1 p0 p1) as PP. pose proof (polar c0 c1 q0 q1) as PQ. cbv zeta in PP, PQ.
  destruct (sweep_spec cw _ _ RP RQ) as (A & B & C & E). split.
  - unfold swept. cbv zeta. rewrite B, C. auto.
  - intros -> ->. now apply E.
Qed.

Lemma arc_path (m' : smotion xr) p q a0 a1 c0 c1 r cw sa da : (a0 < 3)%nat -> (a1 < 3)%nat -> a0 <> a1 ->
  (forall i, (i < 3)%nat -> nthZ K (sm_start m') i = XF (p i)) ->
  (forall i, (i < 3)%nat -> nthZ K (sm_delta m') i = XF (dl p q i)) ->
  sm_arc0 m' = a0 -> sm_arc1 m' = a1 -> sm_center0 m' = XF c0 -> sm_center1 m' = XF c1 -> sm_radius m' = XF r ->
  sm_startAngle m' = XF sa -> sm_deltaAngle m' = XF da ->
  swept cw c0 c1 (p a0) (p a1) (q a0) (q a1) sa da ->
  sm_length m' = XF (sqrt (sq (r * da) +
     ((if is_arc a0 a1 0 then 0 else sq (dl p q 0)) + (if is_arc a0 a1 1 then 0 else sq (dl p q 1)) +
      (if is_arc a0 a1 2 then 0 else sq (dl p q 2))))) ->
  0 < r -> dist2 c0 c1 (p a0) (p a1) = sq r -> dist2 c0 c1 (q a0) (q a1) = sq r ->
  exists P, goes m' P p q /\ pa_arc P = Some (mkArc a0 a1 c0 c1 r sa da).
Proof.
  intros L0 L1 NE ST DE A0 A1 C0 C1 RR SA DA SW EL RP DP DQ.
  set (X := sq (r * da) + _) in EL. set (A := mkArc a0 a1 c0 c1 r sa da).
  assert (DN : da <> 0). { destruct SW as (_ & _ & SW). destruct cw; lra. }
  assert (XP : 0 < X).
  { assert (0 < sq (r * da)). { unfold sq. assert (r * da <> 0) by (apply Rmult_integral_contrapositive; split; lra). pose proof (Rsqr_pos_lt (r * da) ltac:(assumption)). exact H0. }
    assert (forall i, 0 <= (if is_arc a0 a1 i then 0 else sq (dl p q i))) as Y.
    { intros i. destruct (is_arc a0 a1 i); [lra|]. apply Rle_0_sqr. }
    pose proof (Y 0%nat). pose proof (Y 1%nat). pose proof (Y 2%nat). unfold X. lra. }
  assert (LP : 0 < sqrt X) by (now apply sqrt_lt_R0).
  exists (mkPath (sqrt X) p (dl p q) (Some A)). split; [|reflexivity]. split; [|split].
  - split; [exact EL|]. split; [exact ST|]. split; [exact DE|]. cbn [pa_arc A ar_0 ar_1 ar_c0 ar_c1 ar_r ar_a0 ar_da]. auto 10.
  - split; [exact LP|]. cbn [pa_arc A ar_0 ar_1 ar_c0 ar_c1 ar_r ar_a0 ar_da pa_len]. split; [exact RP|]. split; [exact L0|]. split; [exact L1|].
    split; [exact NE|]. unfold sq at 1. rewrite sqrt_sqrt by lra. reflexivity.
  - intros i Hi. set (P := mkPath (sqrt X) p (dl p q) (Some A)).
    destruct (path_ends P LP) as (EE & _).
    destruct (arc_ends P A LP eq_refl NE) as (E1 & E2 & E3 & E4).
    cbn [A ar_0 ar_1 ar_c0 ar_c1 ar_r ar_a0 ar_da] in E1, E2, E3, E4.
    destruct SW as ((S1 & S2) & (S3 & S4) & _). rewrite DP in S1, S2. rewrite DQ in S3, S4.
    assert (SR : sqrt (sq r) = r) by (apply sqrt_square; lra). rewrite SR in *.
    destruct (Nat.eq_dec i a0) as [->|N0]; [rewrite E1, E3; auto|].
    destruct (Nat.eq_dec i a1) as [->|N1]; [rewrite E2, E4; auto|].
    assert (OA : on_arc P i = false).
    { unfold on_arc. cbn [pa_arc P A ar_0 ar_1]. apply orb_false_iff. rewrite !Nat.eqb_neq. auto. }
    destruct (EE i OA) as (F1 & F2). cbn [P pa_start pa_delta pa_len] in *. split; [exact F1|]. fold P. rewrite F2. unfold dl. ring.
Qed.

Lemma plane_ok pl a0 a1 : arc_axes pl = (a0, a1) -> (a0 < 3)%nat /\ (a1 < 3)%nat /\ a0 <> a1.
Proof. destruct pl; intros E; injection E as <- <-; lia. Qed.

Lemma seven_offset a : (a < 3)%nat -> In (offset_letter a) [(cX, LtX); (cY, LtY); (cZ, LtZ); (cI, LtI); (cJ, LtJ); (cK, LtK); (cR, LtR)]
  /\ In (offset_letter a) value_letters.
Proof. intros H. destruct a as [|[|[|]]]; [unfold offset_letter, value_letters; cbn [In]; auto 20..|lia]. Qed.

Lemma letter_value c m l c' m' ws sP b p q ch g x : line_words K l ws -> sized (g_st c) -> g_line K pi c m l = Ok (c', m') ->
  set_up c m c' m' ws sP b p q ->
  In (ch, g) [(cX, LtX); (cY, LtY); (cZ, LtZ); (cI, LtI); (cJ, LtJ); (cK, LtK); (cR, LtR)] -> In (ch, g) value_letters ->
  has_value ws ch x -> letter K sP g = x.
Proof.
  intros LW SZ H U I7 IV HV. destruct (seven_ne _ _ I7) as (_ & NF).
  rewrite (k_letters _ _ _ _ _ _ _ _ _ _ (u_ok _ _ _ _ _ _ _ _ _ U) g NF).
  destruct (u_cons _ _ _ _ _ _ _ _ _ U) as (NG & NL).
  destruct (letters_lemma K pi c m l c' m' ws LW (conj NG NL) SZ H) as (A1 & _).
  destruct (A1 ch g I7) as [V|(_ & N)].
  - exact (value_unique ws ch g _ _ NL IV V HV).
  - destruct HV as (w & Iw & E & _). exfalso. apply N. exists w. auto.
Qed.

(** What both kinds of arc have in common. *)
Lemma arc_common c m c' m' ws sP b p q a0 a1 c0 c1 r : set_up c m c' m' ws sP b p q ->
  is_arc_type (sm_type m') -> arc_axes (s_plane sP) = (a0, a1) ->
  (forall m0, sm_type m0 = sm_type m' -> forall m2,
     calcArcCenterAndRadius K b (st_next (map (next_axis K sP) axes) sP)
               (setArcAxisFromPlane (st_next (map (next_axis K sP) axes) sP) (snd (calcNextPosition K sP m0))) = Ok m2 ->
     same_geom (sm_with_arc (setArcAxisFromPlane (st_next (map (next_axis K sP) axes) sP) (snd (calcNextPosition K sP m0))) (XF c0) (XF c1) (XF r)) m2) ->
  exists sa da, arc_is m' a0 a1 c0 c1 r sa da /\
    swept (is_cw (sm_type m')) c0 c1 (p a0) (p a1) (q a0) (q a1) sa da /\
    (p a0 = q a0 -> p a1 = q a1 -> Rabs da = 2 * PI) /\
    (0 < r -> dist2 c0 c1 (p a0) (p a1) = sq r -> dist2 c0 c1 (q a0) (q a1) = sq r ->
     exists P, goes m' P p q /\ pa_arc P = Some (mkArc a0 a1 c0 c1 r sa da)).
Proof.
  intros U AT EA CC.
  pose proof (k_calc _ _ _ _ _ _ _ _ _ _ (u_ok _ _ _ _ _ _ _ _ _ U)) as CM.
  set (m0 := sm_with_type (sm_type m') (sm_with_type mt_none m)) in CM.
  assert (TY : sm_type m0 = sm_type m') by reflexivity. clearbody m0.
  assert (HH : is_helical (sm_type m0) = true) by (rewrite TY; now apply is_helical_arc).
  assert (EC : is_cw (sm_type m0) = is_cw (sm_type m')) by now rewrite TY.
  destruct (start_delta b sP m0 m' p q (u_P _ _ _ _ _ _ _ _ _ U) (u_Q _ _ _ _ _ _ _ _ _ U) CM) as (_ & ST & DE).
  destruct (calc_arc b sP m0 m' p q (u_P _ _ _ _ _ _ _ _ _ U) (u_Q _ _ _ _ _ _ _ _ _ U) _ c0 c1 r a0 a1 HH EC EA CM (CC m0 TY))
    as (F1 & F2 & F3 & F4 & F5 & F6 & F7 & F8).
  destruct (swept_sweep (is_cw (sm_type m')) c0 c1 (p a0) (p a1) (q a0) (q a1)) as (SW & FC). cbv zeta in SW, FC.
  eexists. eexists. split; [unfold arc_is; rewrite F1, F2, F3, F4, F5, F6, F7; repeat split|]. split; [exact SW|]. split; [exact FC|].
  intros RP DP DQ. destruct (plane_ok _ _ _ EA) as (L0 & L1 & NE).
  exact (arc_path m' p q a0 a1 c0 c1 r _ _ _ L0 L1 NE ST DE F1 F2 F3 F4 F5 F6 F7 SW F8 RP DP DQ).
Qed.

Lemma arc_offset_lemma c m l c' m' ws a0 a1 o0 o1 : line_words K l ws -> sized (g_st c) -> finite_state (g_st c) ->
  g_line K pi c m l = Ok (c', m') -> made_motion c' m' -> is_arc_type (sm_type m') ->
  arc_axes (s_plane (g_st c')) = (a0, a1) ->
  has_value ws (fst (offset_letter a0)) (XF o0) -> has_value ws (fst (offset_letter a1)) (XF o1) ->
  exists p q sa da, at_mm (s_cur (g_st c)) p /\ at_mm (s_cur (g_st c')) q /\
    let c0 := p a0 + mm (s_unit (g_st c')) o0 in
    let c1 := p a1 + mm (s_unit (g_st c')) o1 in
    let r := sqrt (dist2 c0 c1 (p a0) (p a1)) in
    arc_is m' a0 a1 c0 c1 r sa da /\
    swept (is_cw (sm_type m')) c0 c1 (p a0) (p a1) (q a0) (q a1) sa da /\
    (p a0 = q a0 -> p a1 = q a1 -> Rabs da = 2 * PI) /\
    (0 < r -> dist2 c0 c1 (q a0) (q a1) = dist2 c0 c1 (p a0) (p a1) ->
     exists P, goes m' P p q /\ pa_arc P = Some (mkArc a0 a1 c0 c1 r sa da)).
Proof.
  intros LW SZ FS H MM AT EA V0 V1.
  destruct (line_setup c m l c' m' ws LW SZ FS H MM) as (sP & b & p & q & U).
  pose proof (u_ok _ _ _ _ _ _ _ _ _ U) as KO.
  rewrite <- (k_plane _ _ _ _ _ _ _ _ _ _ KO) in EA. rewrite <- (k_unit _ _ _ _ _ _ _ _ _ _ KO).
  destruct (plane_ok _ _ _ EA) as (L0 & L1 & NE).
  assert (LV : forall a o, (a < 3)%nat -> has_value ws (fst (offset_letter a)) (XF o) -> letter K sP (snd (offset_letter a)) = XF o).
  { intros a o La V. destruct (seven_offset a La) as (I7 & IV). rewrite (surjective_pairing (offset_letter a)) in I7, IV.
    exact (letter_value c m l c' m' ws sP b p q _ _ _ LW SZ H U I7 IV V). }
  assert (HO : hasOffset b = true).
  { destruct (k_b _ _ _ _ _ _ _ _ _ _ KO) as (EW & CB). apply (offset_words b CB). rewrite EW.
    exists (fst (offset_letter a0)). split; [destruct a0 as [|[|]]; cbn; auto|]. destruct V0 as (w & I & E & _). exists w. auto. }
  assert (DS : dist2 (p a0) (p a1) (p a0 + mm (s_unit sP) o0) (p a1 + mm (s_unit sP) o1) =
    dist2 (p a0 + mm (s_unit sP) o0) (p a1 + mm (s_unit sP) o1) (p a0) (p a1)) by (unfold dist2, sq; ring).
  destruct (arc_common c m c' m' ws sP b p q a0 a1 (p a0 + mm (s_unit sP) o0) (p a1 + mm (s_unit sP) o1)
    (sqrt (dist2 (p a0 + mm (s_unit sP) o0) (p a1 + mm (s_unit sP) o1) (p a0) (p a1))) U AT EA) as (sa & da & R1 & R2 & R3 & R4).
  { rewrite <- DS. intros m0 TY. apply (center_offset b sP m0 p q (u_P _ _ _ _ _ _ _ _ _ U) (u_Q _ _ _ _ _ _ _ _ _ U) a0 a1 o0 o1); auto.
    rewrite TY. now apply is_helical_arc. }
  exists p, q, sa, da. split; [apply (u_p _ _ _ _ _ _ _ _ _ U)|]. split; [apply (u_q _ _ _ _ _ _ _ _ _ U)|].
  cbv zeta. split; [exact R1|]. split; [exact R2|]. split; [exact R3|]. intros RP DQ.
  assert (SS : sq (sqrt (dist2 (p a0 + mm (s_unit sP) o0) (p a1 + mm (s_unit sP) o1) (p a0) (p a1))) =
     dist2 (p a0 + mm (s_unit sP) o0) (p a1 + mm (s_unit sP) o1) (p a0) (p a1)).
  { unfold sq at 1. apply sqrt_sqrt. unfold dist2, sq. apply Rplus_le_le_0_compat; apply Rle_0_sqr. }
  apply R4; [exact RP|now rewrite SS|now rewrite SS].
Qed.

(** distance of the centre, and the side it is on *)
Lemma radius_center d0 d1 R h : 0 < sq d0 + sq d1 <= 4 * sq R -> h = sqrt (4 * sq R - sq d0 - sq d1) / 2 / sqrt (sq d0 + sq d1) ->
  0 <= h /\ forall v, v = h \/ v = - h ->
  sq (d0 / 2 - d1 * v) + sq (d1 / 2 + d0 * v) = sq R /\ sq (d0 / 2 + d1 * v) + sq (d1 / 2 - d0 * v) = sq R.
Proof.
  intros (DP & CH) Eh. set (Q := sq d0 + sq d1) in *.
  pose proof (sqrt_lt_R0 Q DP) as SP. pose proof (sqrt_sqrt Q ltac:(lra)) as SQ.
  pose proof (sqrt_pos (4 * sq R - sq d0 - sq d1)) as HP.
  pose proof (sqrt_sqrt (4 * sq R - sq d0 - sq d1) ltac:(unfold Q in *; lra)) as HQ.
  set (H := sqrt (4 * sq R - sq d0 - sq d1)) in *. set (D := sqrt Q) in *.
  split. { rewrite Eh. unfold Rdiv. assert (0 < / D) by (apply Rinv_0_lt_compat; lra). nra. }
  assert (V2 : h * h * Q = (4 * sq R - Q) / 4).
  { rewrite Eh. rewrite <- SQ. replace (H / 2 / D * (H / 2 / D) * (D * D)) with (H * H / 4) by (field; lra). rewrite HQ, SQ. unfold Q. lra. }
  assert (forall v, v = h \/ v = - h -> v * v * Q = (4 * sq R - Q) / 4) as V by (intros v [-> | ->]; lra).
  intros v Ev. specialize (V v Ev). unfold Q in V. unfold sq in *. split; lra.
Qed.

Lemma side_sin cw c0 c1 p0 p1 q0 q1 sa da r : swept cw c0 c1 p0 p1 q0 q1 sa da ->
  dist2 c0 c1 p0 p1 = sq r -> dist2 c0 c1 q0 q1 = sq r -> 0 < r ->
  sq r * sin da = (p0 - c0) * (q1 - c1) - (p1 - c1) * (q0 - c0).
Proof.
  intros ((S1 & S2) & (S3 & S4) & _) DP DQ RP. rewrite DP in S1, S2. rewrite DQ in S3, S4.
  assert (SR : sqrt (sq r) = r) by (apply sqrt_square; lra). rewrite SR in *.
  assert (p0 - c0 = r * cos sa) as -> by lra. assert (p1 - c1 = r * sin sa) as -> by lra.
  assert (q0 - c0 = r * cos (sa + da)) as -> by lra. assert (q1 - c1 = r * sin (sa + da)) as -> by lra.
  pose proof (sin_minus (sa + da) sa) as SM. replace (sa + da - sa) with da in SM by ring. rewrite SM. unfold sq. ring.
Qed.

Lemma half_turn (cw short : bool) da : (if cw then - (2 * PI) <= da < 0 else 0 < da <= 2 * PI) ->
  (Rabs da = 2 * PI -> False) ->
  (if Bool.eqb cw short then sin da <= 0 else 0 <= sin da) -> if short then Rabs da <= PI else PI <= Rabs da.
Proof.
  intros RA NF SD. pose proof PI_RGT_0.
  destruct cw; [rewrite Rabs_left in * by lra|rewrite Rabs_right in * by lra]; destruct short; cbn [Bool.eqb] in SD; apply Rnot_lt_le; intros C.
  - assert (0 < sin (da + 2 * PI)) as X by (apply sin_gt_0; lra). destruct (cos_turn da) as (_ & _ & _ & T). lra.
  - assert (0 < sin (- da)) as X by (apply sin_gt_0; lra). rewrite sin_neg in X. lra.
  - assert (0 < sin (2 * PI - da)) as X by (apply sin_gt_0; lra).
    destruct (cos_turn (- da)) as (_ & _ & _ & T). replace (- da + 2 * PI) with (2 * PI - da) in T by ring. rewrite sin_neg in T. lra.
  - assert (0 < sin da) as X by (apply sin_gt_0; lra). lra.
Qed.

Lemma arc_radius_lemma c m l c' m' ws a0 a1 r p q : line_words K l ws -> sized (g_st c) -> finite_state (g_st c) ->
  g_line K pi c m l = Ok (c', m') -> made_motion c' m' -> is_arc_type (sm_type m') ->
  arc_axes (s_plane (g_st c')) = (a0, a1) ->
  (forall i, (i < 3)%nat -> ~ has_letter ws (fst (offset_letter i))) -> has_value ws cR (XF r) ->
  at_mm (s_cur (g_st c)) p -> at_mm (s_cur (g_st c')) q ->
  let R := mm (s_unit (g_st c')) r in
  0 < dist2 (p a0) (p a1) (q a0) (q a1) <= sq (2 * R) ->
  exists c0 c1 sa da, arc_is m' a0 a1 c0 c1 (Rabs R) sa da /\
    dist2 c0 c1 (p a0) (p a1) = sq R /\ dist2 c0 c1 (q a0) (q a1) = sq R /\
    swept (is_cw (sm_type m')) c0 c1 (p a0) (p a1) (q a0) (q a1) sa da /\
    (0 < r -> Rabs da <= PI) /\ (r < 0 -> PI <= Rabs da) /\
    exists P, goes m' P p q /\ pa_arc P = Some (mkArc a0 a1 c0 c1 (Rabs R) sa da).
Proof.
  intros LW SZ FS H MM AT EA NO HV ATp ATq. cbv zeta. intros CH.
  destruct (line_setup c m l c' m' ws LW SZ FS H MM) as (sP & b & p' & q' & U).
  pose proof (u_ok _ _ _ _ _ _ _ _ _ U) as KO.
  rewrite <- (k_plane _ _ _ _ _ _ _ _ _ _ KO) in EA. rewrite <- (k_unit _ _ _ _ _ _ _ _ _ _ KO) in *.
  destruct (plane_ok _ _ _ EA) as (L0 & L1 & NE).
  assert (SAME : forall i, (i < 3)%nat -> p i = p' i /\ q i = q' i).
  { intros i Hi. pose proof (ATp i Hi) as X. rewrite (u_p _ _ _ _ _ _ _ _ _ U i Hi) in X.
    pose proof (ATq i Hi) as Y. rewrite (u_q _ _ _ _ _ _ _ _ _ U i Hi) in Y. injection X. injection Y. auto. }
  assert (UP : forall i, (i < 3)%nat -> nthZ K (s_cur sP) i = XF (p i)) by (intros i Hi; rewrite (proj1 (SAME i Hi)); now apply (u_P _ _ _ _ _ _ _ _ _ U)).
  assert (UQ : forall i, (i < 3)%nat -> next_axis K sP i = XF (q i)) by (intros i Hi; rewrite (proj2 (SAME i Hi)); now apply (u_Q _ _ _ _ _ _ _ _ _ U)).
  assert (U' : set_up c m c' m' ws sP b p q) by (split; [apply (u_cons _ _ _ _ _ _ _ _ _ U)|exact KO|exact ATp|exact ATq|exact UP|exact UQ]).
  clear SAME U p' q'.
  assert (LR : letter K sP LtR = XF r) by (apply (letter_value c m l c' m' ws sP b p q cR LtR (XF r) LW SZ H U'); [cbn; auto 10|unfold value_letters; cbn; auto 20|exact HV]).
  destruct (k_b _ _ _ _ _ _ _ _ _ _ KO) as (EW & CB). destruct (offset_words b CB) as (OW & RW). rewrite EW in OW, RW.
  assert (HO : hasOffset b = false).
  { destruct (hasOffset b); [|reflexivity]. destruct (proj1 OW eq_refl) as (ch & I & HL). exfalso.
    cbn [In] in I. destruct I as [<-|[<-|[<-|[]]]]; [apply (NO 0%nat)|apply (NO 1%nat)|apply (NO 2%nat)]; auto. }
  assert (HR : hasRadius b = true) by (apply RW; destruct HV as (w & I & E & _); exists w; auto).
  set (R := mm (s_unit sP) r) in *. set (d0 := dl p q a0). set (d1 := dl p q a1).
  assert (CH' : 0 < sq d0 + sq d1 <= 4 * sq R).
  { unfold dist2, d0, d1, dl, sq in *. lra. }
  set (h := sqrt (4 * sq R - sq d0 - sq d1) / 2 / sqrt (sq d0 + sq d1)).
  set (cw := is_cw (sm_type m')). set (v := if Bool.eqb cw (rltb R 0) then h else - h).
  destruct (radius_center d0 d1 R h CH' eq_refl) as (HP & HV2).
  destruct (HV2 v) as (D1 & D2). { unfold v. destruct (Bool.eqb _ _); auto. }
  assert (RN : R <> 0) by (intros RZ; rewrite RZ in CH'; unfold sq in CH'; lra).
  assert (RP : 0 < Rabs R) by (now apply Rabs_pos_lt).
  assert (RS : sq (Rabs R) = sq R) by (unfold sq; rewrite <- Rabs_mult; apply Rabs_right; pose proof (Rle_0_sqr R); unfold Rsqr in *; lra).
  set (c0 := p a0 + (d0 / 2 - d1 * v)). set (c1 := p a1 + (d1 / 2 + d0 * v)).
  assert (DP : dist2 c0 c1 (p a0) (p a1) = sq R).
  { rewrite <- D1. unfold dist2, c0, c1, sq. ring. }
  assert (DQ : dist2 c0 c1 (q a0) (q a1) = sq R).
  { rewrite <- D2. unfold dist2, c0, c1.
    replace (q a0) with (p a0 + d0) by (unfold d0, dl; ring). replace (q a1) with (p a1 + d1) by (unfold d1, dl; ring). unfold sq. field. }
  destruct (arc_common c m c' m' ws sP b p q a0 a1 c0 c1 (Rabs R) U' AT EA) as (sa & da & R1 & R2 & R3 & R4).
  { intros m0 TY. apply (center_radius b sP m0 p q UP UQ cw a0 a1 r); auto.
    - rewrite TY. now apply is_helical_arc.
    - unfold cw. now rewrite TY. }
  exists c0, c1, sa, da. split; [exact R1|]. split; [exact DP|]. split; [exact DQ|]. split; [exact R2|].
  assert (HT : if rltb R 0 then PI <= Rabs da else Rabs da <= PI).
  { assert (X : if negb (rltb R 0) then Rabs da <= PI else PI <= Rabs da); [|destruct (rltb R 0); exact X].
    apply (half_turn cw).
    - destruct R2 as (_ & _ & R2). exact R2.
    - intros FC. assert (PQ : p a0 = q a0 /\ p a1 = q a1); [|destruct PQ as (P0 & P1); unfold d0, d1, dl in CH'; rewrite P0, P1 in CH'; unfold sq in CH'; lra].
      destruct R2 as ((S1 & S2) & (S3 & S4) & _). rewrite DP in S1, S2. rewrite DQ in S3, S4.
      assert (CS : cos (sa + da) = cos sa /\ sin (sa + da) = sin sa).
      { destruct (cos_turn sa) as (T1 & T2 & T3 & T4). destruct (Rcase_abs da) as [Ln|Lp].
        - rewrite Rabs_left in FC by lra. replace (sa + da) with (sa - 2 * PI) by lra. auto.
        - rewrite Rabs_right in FC by lra. rewrite FC. auto. }
      destruct CS as (CS & CN). rewrite CS in S3. rewrite CN in S4. split; lra.
    - pose proof (side_sin _ _ _ _ _ _ _ _ _ _ R2 ltac:(rewrite RS; exact DP) ltac:(rewrite RS; exact DQ) RP) as SS. rewrite RS in SS.
      assert (CX : (p a0 - c0) * (q a1 - c1) - (p a1 - c1) * (q a0 - c0) = v * (sq d0 + sq d1)).
      { unfold c0, c1. replace (q a0) with (p a0 + d0) by (unfold d0, dl; ring). replace (q a1) with (p a1 + d1) by (unfold d1, dl; ring). unfold sq. field. }
      rewrite CX in SS. assert (0 < sq R) by (unfold sq in *; nra). unfold v in SS.
      destruct cw, (rltb R 0); cbn [negb Bool.eqb] in *; nra. }
  assert (RSIGN : (0 < r -> 0 < R) /\ (r < 0 -> R < 0)) by (unfold R, mm; destruct (s_unit sP); lra).
  unfold rltb in HT. destruct (Rlt_dec R 0) as [Rn|Rn].
  - split; [intros X; apply RSIGN in X; lra|]. split; [intros _; exact HT|].
    apply R4; [exact RP|rewrite RS; exact DP|rewrite RS; exact DQ].
  - split; [intros _; exact HT|]. split; [intros X; apply RSIGN in X; lra|].
    apply R4; [exact RP|rewrite RS; exact DP|rewrite RS; exact DQ].
Qed.

(** *** Speeds *)
Lemma speed_value (S : @gstate xr) (m0 : smotion xr) : let m1 := calcPeripherals K S (calcSpeedAndOrDuration K S m0) in
  (sm_type m0 = traverse -> sm_vFeed m1 = XP) /\
  (is_feed_type (sm_type m0) -> forall f L, letter K S LtF = XF f -> sm_length m0 = XF L ->
    let v := match s_feed S with G93 => L * f / 60 | G94 => mm (s_unit S) f / 60 end in
    sm_vFeed m1 = XF v /\ (0 < v -> sm_duration m1 = XF (L / v))).
Proof.
  cbv zeta. unfold calcPeripherals.
  assert (G : (sm_type m0 = traverse -> sm_vFeed (calcSpeedAndOrDuration K S m0) = XP) /\
    (is_feed_type (sm_type m0) -> forall f L, letter K S LtF = XF f -> sm_length m0 = XF L ->
    let v := match s_feed S with G93 => L * f / 60 | G94 => mm (s_unit S) f / 60 end in
    sm_vFeed (calcSpeedAndOrDuration K S m0) = XF v /\ (0 < v -> sm_duration (calcSpeedAndOrDuration K S m0) = XF (L / v)))).
  { unfold calcSpeedAndOrDuration. split.
    - intros ->. reflexivity.
    - intros FT f L EF EL. rewrite EF, EL, to_mm_in, to_mm_fin. cbv zeta.
      assert (D60 : forall x, ndiv K (XF x) (nofZ K 60) = XF (x / 60)).
      { intros x. change (nofZ K 60) with (XF 60). cbn [ndiv x_num xdiv]. destruct (Req_EM_T 60 0); [lra|reflexivity]. }
      assert (DV : forall x y, 0 < y -> ndiv K (XF x) (XF y) = XF (x / y)).
      { intros x y Y. cbn [ndiv x_num xdiv]. destruct (Req_EM_T y 0); [lra|reflexivity]. }
      change (nmul K (XF L) (XF f)) with (XF (L * f)). rewrite !D60.
      destruct FT as [->|[->| ->]]; destruct (s_feed S); cbn [sm_vFeed sm_duration]; (split; [reflexivity|]); intros V; now apply DV. }
  destruct (s_spindle S); exact G.
Qed.

Lemma speed_lemma c m l c' m' ws : line_words K l ws -> sized (g_st c) -> g_line K pi c m l = Ok (c', m') -> made_motion c' m' ->
  (sm_type m' = traverse -> sm_vFeed m' = XP) /\
  (is_feed_type (sm_type m') -> forall f L, active_feed K ws (letter K (g_st c) LtF) (XF f) -> sm_length m' = XF L ->
    let v := match s_feed (g_st c') with G93 => L * f / 60 | G94 => mm (s_unit (g_st c')) f / 60 end in
    sm_vFeed m' = XF v /\ (0 < v -> sm_duration m' = XF (L / v))).
Proof.
  intros LW SZ H MM.
  destruct (line_motion K pi c m l c' m' ws LW SZ H) as [(A & _)|(_ & CO & (sP & b & t & KO) & _)]; [contradiction|].
  destruct (calc_parts b sP _ m' (k_calc _ _ _ _ _ _ _ _ _ _ KO)) as (m2 & _ & EM).
  set (S := st_next (map (next_axis K sP) axes) sP) in EM.
  assert (LS : letter K S LtF = letter K sP LtF) by reflexivity.
  assert (US : s_unit S = s_unit (g_st c')) by exact (k_unit _ _ _ _ _ _ _ _ _ _ KO).
  assert (SF : s_feed S = s_feed (g_st c')) by exact (k_feed _ _ _ _ _ _ _ _ _ _ KO).
  set (m4 := calcTrajectoryLength K (calcArcAngles K pi S m2)) in EM. clearbody S m4.
  destruct (speed_fields S m4) as (T & EL & _). destruct (speed_value S m4) as (V1 & V2). cbv zeta in *.
  rewrite <- EM in *. rewrite <- T in V1, V2. rewrite <- EL in V2. rewrite US, SF in V2. split; [exact V1|].
  intros FT f L AF. apply V2; [exact FT|]. rewrite LS. destruct CO as (_ & NL).
  destruct AF as [(V & P)|(NF & NM & E)].
  - destruct (k_F _ _ _ _ _ _ _ _ _ _ KO) as [(V' & _)|(_ & [N|(x & V' & P')])].
    + apply (value_unique ws cF LtF _ _ NL); [unfold value_letters; cbn; auto 20|exact V'|exact V].
    + destruct V as (w & I & E & _). exfalso. apply N. exists w. auto.
    + assert (x = XF f) as -> by (apply (value_unique ws cF LtF _ _ NL); [unfold value_letters; cbn; auto 20|exact V'|exact V]).
      congruence.
  - destruct (k_F _ _ _ _ _ _ _ _ _ _ KO) as [((w & I & E' & _) & _)|([((l0 & n0 & v0 & I & HH) & _)|(_ & E')] & _)].
    + exfalso. apply NF. exists w. auto.
    + destruct (NM _ _ _ I HH).
    + rewrite E'. now symmetry.
Qed.

(** *** Peripherals, for any arithmetic *)
Section Any.
Context {D : Type} (A : num D) (pc : D).
Lemma peripherals (S : @gstate D) (m0 : smotion D) : let m1 := calcPeripherals A S m0 in
  (sm_flood m1 = true <-> s_flood S = FloodM7) /\ (sm_mist m1 = true <-> s_mist S = MistM8) /\
  (s_spindle S = M5 -> sm_spindle m1 = nofZ A 0) /\
  (s_spindle S <> M5 -> sm_spindle m1 = letter A S LtS /\ (sm_cw m1 = true <-> s_spindle S = M3)).
Proof.
  cbv zeta. unfold calcPeripherals. destruct (s_spindle S) eqn:E; cbn [sm_flood sm_mist sm_spindle sm_cw];
  (split; [destruct (s_flood S); split; (reflexivity || discriminate)|]);
  (split; [destruct (s_mist S); split; (reflexivity || discriminate)|]); split; try reflexivity; try discriminate; intros N.
  all: try (split; [reflexivity|]; split; (reflexivity || discriminate)).
  congruence.
Qed.

Lemma calcMotion_peripherals b (s s' : @gstate D) m m' : calcMotion A pc b s m = Ok (s', m') ->
  exists m0, m' = calcPeripherals A (st_next (map (next_axis A s) axes) s) m0.
Proof.
  unfold calcMotion. intros H. cbn beta iota zeta delta [calcNextPosition] in H.
  destruct (calcArcCenterAndRadius A b _ _) as [m2|] eqn:E; [|discriminate]. cbn [rbind] in H. apply inj_ok in H. injection H as _ <-.
  eexists. reflexivity.
Qed.

Lemma peripherals_lemma c m l c' m' : sized (g_st c) -> g_line A pc c m l = Ok (c', m') -> made_motion c' m' ->
  let s' := g_st c' in
  (sm_flood m' = true <-> s_flood s' = FloodM7) /\ (sm_mist m' = true <-> s_mist s' = MistM8) /\
  (s_spindle s' = M5 -> sm_spindle m' = nofZ A 0) /\
  (s_spindle s' <> M5 -> sm_spindle m' = letter A s' LtS /\ (sm_cw m' = true <-> s_spindle s' = M3)).
Proof.
  intros SZ H MM. destruct (line_parse _ _ _ _ _ _ _ H) as (b0 & E & _).
  destruct (line_motion A pc c m l c' m' (b_words b0) ltac:(exists b0; auto) SZ H) as [(X & _)|(_ & CO & (sP & b & t & KO) & _)]; [contradiction|].
  destruct (calcMotion_peripherals _ _ _ _ _ (k_calc _ _ _ _ _ _ _ _ _ _ KO)) as (m0 & EM).
  set (S := st_next _ sP) in EM.
  assert (S1 : s_flood S = s_flood (g_st c')) by exact (k_flood _ _ _ _ _ _ _ _ _ _ KO).
  assert (S2 : s_mist S = s_mist (g_st c')) by exact (k_mist _ _ _ _ _ _ _ _ _ _ KO).
  assert (S3 : s_spindle S = s_spindle (g_st c')) by exact (k_spindle _ _ _ _ _ _ _ _ _ _ KO).
  assert (S4 : letter A S LtS = letter A (g_st c') LtS) by exact (k_letters _ _ _ _ _ _ _ _ _ _ KO LtS ltac:(discriminate)).
  clearbody S. pose proof (peripherals S m0) as P. cbv zeta in P. rewrite <- EM, S1, S2, S3, S4 in P. exact P.
Qed.
End Any.
