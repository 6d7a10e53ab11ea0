(** Every arc in a program asks for an arc in the sense of C81. *)
Require Import String List Arith NArith ZArith Bool Reals Lra Lia.
From Coq Require Import Floats.SpecFloat.
From Flocq Require Import Raux.
From Verif Require Import Base Num NumR NumSF MotionModel CtrlModel CtrlSpec ProfileSpec GeomSpec RunSpec GcodeModel GcodeSpec GcodeRSpec GText GArcProofs GPathProofs GLineProofs.
From Verif Require Import FloatSpec FloatRunSpec FloatProgSpec FloatArcSpec FloatBendSpec FloatRadiusSpec FloatReadProofs FloatJobProofs FloatTextProofs FloatOffsetProofs FloatRadiusProofs FloatArcProofs.
Import ListNotations.
Open Scope R_scope.

(** *** Distances. *)
Lemma dist2_nonneg a b c d : 0 <= dist2 a b c d.
Proof. unfold dist2, sq. pose proof (sq_nonneg (c - a)). pose proof (sq_nonneg (d - b)). lra. Qed.
Lemma norm_le a b : sqrt (sq a + sq b) <= Rabs a + Rabs b.
Proof.
  pose proof (Rabs_pos a). pose proof (Rabs_pos b). rewrite <- (R_sqrt.sqrt_square (Rabs a + Rabs b)) by lra. apply sqrt_le_1_alt.
  assert (E : forall x, sq x = Rabs x * Rabs x) by (intro x; unfold sq; rewrite <- Rabs_mult, Rabs_pos_eq by apply sq_nonneg; reflexivity).
  rewrite !E. pose proof (Rmult_le_pos _ _ H H0). lra.
Qed.
Lemma triangle a b c d : sqrt (sq (a + c) + sq (b + d)) <= sqrt (sq a + sq b) + sqrt (sq c + sq d).
Proof.
  assert (P : forall x y, 0 <= sq x + sq y) by (intros; unfold sq; pose proof (sq_nonneg x); pose proof (sq_nonneg y); lra).
  pose proof (sqrt_pos (sq a + sq b)) as S1. pose proof (sqrt_pos (sq c + sq d)) as S2. pose proof (sqrt_sqrt _ (P a b)) as E1. pose proof (sqrt_sqrt _ (P c d)) as E2.
  set (x := sqrt (sq a + sq b)) in *. set (y := sqrt (sq c + sq d)) in *.
  rewrite <- (R_sqrt.sqrt_square (x + y)) by lra. apply sqrt_le_1_alt.
  assert (CS : a * c + b * d <= x * y).
  { apply Rle_trans with (Rabs (a * c + b * d)); [apply Rle_abs|]. rewrite <- (Rabs_pos_eq (x * y)) by (apply Rmult_le_pos; auto). apply Rsqr_le_abs_0. unfold Rsqr.
    replace (x * y * (x * y)) with ((x * x) * (y * y)) by ring. rewrite E1, E2. unfold sq. pose proof (sq_nonneg (a * d - b * c)). lra. }
  replace ((x + y) * (x + y)) with (x * x + y * y + 2 * (x * y)) by ring. rewrite E1, E2. unfold sq in *. lra.
Qed.
(** Moving the centre changes distances by no more than it is moved. *)
Lemma moved c0 c1 e0 e1 x0 x1 : Rabs (sqrt (dist2 c0 c1 x0 x1) - sqrt (dist2 e0 e1 x0 x1)) <= Rabs (c0 - e0) + Rabs (c1 - e1).
Proof.
  unfold dist2. pose proof (triangle (x0 - e0) (x1 - e1) (e0 - c0) (e1 - c1)) as T1. pose proof (triangle (x0 - c0) (x1 - c1) (c0 - e0) (c1 - e1)) as T2.
  replace (x0 - e0 + (e0 - c0)) with (x0 - c0) in T1 by ring. replace (x1 - e1 + (e1 - c1)) with (x1 - c1) in T1 by ring.
  replace (x0 - c0 + (c0 - e0)) with (x0 - e0) in T2 by ring. replace (x1 - c1 + (c1 - e1)) with (x1 - e1) in T2 by ring.
  pose proof (norm_le (e0 - c0) (e1 - c1)) as N1. pose proof (norm_le (c0 - e0) (c1 - e1)) as N2. rewrite (Rabs_minus_sym e0 c0), (Rabs_minus_sym e1 c1) in N1. apply Rabs_le. lra.
Qed.
(** The chord of a small turn. *)
Lemma chord c0 c1 h h' t d p0 p1 q0 q1 : p0 = c0 + h * cos t -> p1 = c1 + h * sin t -> q0 = c0 + h' * cos (t + d) -> q1 = c1 + h' * sin (t + d) ->
  0 <= h -> 0 <= h' -> dist2 p0 p1 q0 q1 <= sq (h - h') + h * h' * (d * d).
Proof.
  intros -> -> -> -> H H'. unfold dist2. replace (c0 + h' * cos (t + d) - (c0 + h * cos t)) with (h' * cos (t + d) - h * cos t) by ring.
  replace (c1 + h' * sin (t + d) - (c1 + h * sin t)) with (h' * sin (t + d) - h * sin t) by ring.
  assert (C : cos d = cos (t + d) * cos t + sin (t + d) * sin t). { replace d with (t + d - t) at 1 by ring. apply cos_minus. }
  pose proof (sin2_cos2 t) as E1. pose proof (sin2_cos2 (t + d)) as E2. unfold Rsqr in *.
  assert (E : sq (h' * cos (t + d) - h * cos t) + sq (h' * sin (t + d) - h * sin t) = sq (h - h') + 2 * (h * h') * (1 - cos d)).
  { rewrite C. unfold sq. set (x := cos t) in *. set (y := sin t) in *. set (x' := cos (t + d)) in *. set (y' := sin (t + d)) in *.
    replace ((h' * x' - h * x) * (h' * x' - h * x) + (h' * y' - h * y) * (h' * y' - h * y)) with (h' * h' * (y' * y' + x' * x') + h * h * (y * y + x * x) - 2 * (h * h') * (x' * x + y' * y)) by ring.
    rewrite E1, E2. ring. }
  rewrite E. assert (B : 1 - cos d <= d * d / 2).
  { replace d with (2 * (d / 2)) at 1 by field. rewrite cos_2a_sin. assert (SB : sin (d / 2) * sin (d / 2) <= (d / 2) * (d / 2)).
    { assert (Rabs (sin (d / 2)) <= Rabs (d / 2)). { pose proof (FloatArcProofs.sin_lip (d / 2) 0) as L. rewrite sin_0, !Rminus_0_r in L. exact L. } apply Rsqr_le_abs_1. assumption. }
    lra. }
  assert (0 <= h * h') by (apply Rmult_le_pos; auto). assert (h * h' * (1 - cos d) <= h * h' * (d * d / 2)) by (apply Rmult_le_compat_l; auto). lra.
Qed.

(** *** The arc of a motion with a circle. *)
Lemma asked_any X (m : smotion sf) xp xq p q a0 a1 c0 c1 r : sm_arc0 m = a0 -> sm_arc1 m = a1 -> float64 (sm_center0 m) c0 -> float64 (sm_center1 m) c1 -> float64 (sm_radius m) r ->
  is_arc_type (sm_type m) -> at64 X xp p -> at64 X xq q -> (a0 < 3)%nat -> (a1 < 3)%nat ->
  let hp := sqrt (dist2 c0 c1 (p a0) (p a1)) in let hq := sqrt (dist2 c0 c1 (q a0) (q a1)) in
  (sq (hp - hq) + hp * hq / 1000000000000 < dist2 (p a0) (p a1) (q a0) (q a1) \/ forall i, i = a0 \/ i = a1 -> coord_at (g_f X) xq i = coord_at (g_f X) xp i) ->
  exists A, arc_asked X m xp xq p q A hp hq /\ ar_0 A = a0 /\ ar_1 A = a1 /\ ar_c0 A = c0 /\ ar_c1 A = c1 /\ ar_r A = r.
Proof.
  intros A0 A1 F0 F1 FR AT AP AQ L0 L1 hp hq CL. set (cw := is_cw (sm_type m)).
  destruct (swept_sweep cw c0 c1 (p a0) (p a1) (q a0) (q a1)) as ((S1 & S2 & S3) & S4). cbv zeta in S1, S2, S3.
  set (sa := ratan2 (p a1 - c1) (p a0 - c0)) in *. set (da := sweep cw sa (ratan2 (q a1 - c1) (q a0 - c0))) in *. fold hp in S1. fold hq in S2.
  pose proof (ratan2_range (p a1 - c1) (p a0 - c0)) as RG. fold sa in RG. pose proof PI_RGT_0.
  exists (mkArc a0 a1 c0 c1 r sa da). cbn [ar_0 ar_1 ar_c0 ar_c1 ar_r]. split; [|auto]. constructor; unfold seen; cbn [ar_0 ar_1 ar_c0 ar_c1 ar_r ar_a0 ar_da]; auto.
  - apply Rabs_le. lra.
  - destruct AT as [E|E]; unfold cw in S3; rewrite E in S3; cbn in S3; [left|right]; (split; [exact E|lra]).
  - assert (RA : 0 < Rabs da <= 2 * PI). { destruct cw; [rewrite Rabs_left by lra|rewrite Rabs_right by lra]; lra. }
    destruct CL as [CL|CL].
    + left. pose proof (sqrt_pos (dist2 c0 c1 (p a0) (p a1))) as HP. fold hp in HP. pose proof (sqrt_pos (dist2 c0 c1 (q a0) (q a1))) as HQ. fold hq in HQ.
      assert (PP : 0 <= hp * hq) by (apply Rmult_le_pos; auto).
      assert (NO : forall d, Rabs d < / 1000000 -> cos (sa + d) = cos (sa + da) -> sin (sa + d) = sin (sa + da) -> False).
      { intros d Hd EC ES. pose proof (chord c0 c1 hp hq sa d (p a0) (p a1) (q a0) (q a1)) as CH. rewrite EC, ES in CH.
        specialize (CH (proj1 S1) (proj2 S1) (proj1 S2) (proj2 S2) HP HQ).
        assert (d * d <= / 1000000 * / 1000000). { replace (d * d) with (Rabs d * Rabs d) by (rewrite <- Rabs_mult; apply Rabs_pos_eq, sq_nonneg). pose proof (Rabs_pos d). apply Rmult_le_compat; lra. }
        assert (hp * hq * (d * d) <= hp * hq * (/ 1000000 * / 1000000)) by (apply Rmult_le_compat_l; auto). lra. }
      split; apply Rnot_lt_le; intro C.
      * apply (NO da); auto.
      * destruct (cos_turn (sa + da)) as (T1 & T2 & T3 & T4). destruct cw.
        -- apply (NO (da + 2 * PI)); [rewrite Rabs_left in C by lra; rewrite Rabs_pos_eq; lra|..]; rewrite <- Rplus_assoc; auto.
        -- apply (NO (da - 2 * PI)); [rewrite Rabs_right in C by lra; rewrite Rabs_left1; lra|..]; unfold Rminus; rewrite <- Rplus_assoc; auto.
    + right. split; [|exact CL]. assert (EQ : forall i, (i < 3)%nat -> i = a0 \/ i = a1 -> p i = q i).
      { intros i Hi Ii. pose proof (AP i Hi) as (_ & V1). pose proof (AQ i Hi) as (_ & V2). rewrite (CL i Ii) in V2. congruence. }
      apply S4; apply EQ; auto.
Qed.

(** *** Arcs with offsets. *)
Lemma offsets_asked X pi c m l c' m' ws a0 a1 y0 y1 o0 o1 p q : line_words (g_f X) l ws -> reached (g_f X) pi c m -> g_line (g_f X) pi c m l = Ok (c', m') -> made_motion c' m' -> is_arc_type (sm_type m') ->
  arc_axes (s_plane (g_st c')) = (a0, a1) -> has_value ws (fst (offset_letter a0)) y0 -> has_value ws (fst (offset_letter a1)) y1 ->
  float64 y0 o0 -> float64 y1 o1 -> sensible o0 -> sensible o1 -> at64 X (s_cur (g_st c)) p -> Rabs (p a0) <= 1000000 -> Rabs (p a1) <= 1000000 -> at64 X (s_cur (g_st c')) q ->
  let v := mm (s_unit (g_st c')) in let R := sqrt (sq (v o0) + sq (v o1)) in let Q := sqrt (dist2 (p a0 + v o0) (p a1 + v o1) (q a0) (q a1)) in
  / 1000 <= R <= 400000 ->
  (R / 500000 + 2 * Rabs (Q - R) + / 1000000 <= sqrt (dist2 (p a0) (p a1) (q a0) (q a1)) \/
   forall i, i = a0 \/ i = a1 -> coord_at (g_f X) (s_cur (g_st c')) i = coord_at (g_f X) (s_cur (g_st c)) i) ->
  exists A hp hq, arc_asked X m' (s_cur (g_st c)) (s_cur (g_st c')) p q A hp hq /\ ar_0 A = a0 /\ ar_1 A = a1 /\
    Rabs (ar_c0 A - (p a0 + v o0)) <= / 1000000000 /\ Rabs (ar_c1 A - (p a1 + v o1)) <= / 1000000000 /\ Rabs (ar_r A - R) <= / 200000000 /\
    Rabs (hp - R) <= / 500000000 /\ Rabs (hq - Q) <= / 500000000.
Proof.
  intros LW RE H MM AT EA V0 V1 F0 F1 S0 S1 AP B0 B1 AQ v R Q RB CL.
  destruct (circle_near X pi c m l c' m' ws a0 a1 y0 y1 o0 o1 p LW RE H MM AT EA V0 V1 F0 F1 S0 S1 AP B0 B1 RB) as (P0 & P1 & c0 & c1 & r & C0 & C1 & CR & E0 & E1 & ER).
  fold v in E0, E1, ER. fold R in ER. destruct (plane_ok _ _ _ EA) as (L0 & L1 & NE).
  set (hp := sqrt (dist2 c0 c1 (p a0) (p a1))). set (hq := sqrt (dist2 c0 c1 (q a0) (q a1))).
  assert (HP : Rabs (hp - R) <= / 500000000).
  { pose proof (moved c0 c1 (p a0 + v o0) (p a1 + v o1) (p a0) (p a1)) as MV. fold hp in MV.
    assert (ED : sqrt (dist2 (p a0 + v o0) (p a1 + v o1) (p a0) (p a1)) = R) by (unfold R, dist2, sq; f_equal; ring). rewrite ED in MV. lra. }
  assert (HQ : Rabs (hq - Q) <= / 500000000).
  { pose proof (moved c0 c1 (p a0 + v o0) (p a1 + v o1) (q a0) (q a1)) as MV. fold hq Q in MV. lra. }
  destruct (asked_any X m' (s_cur (g_st c)) (s_cur (g_st c')) p q a0 a1 c0 c1 r P0 P1 C0 C1 CR AT AP AQ L0 L1) as (A & AA & A0 & A1 & Ac0 & Ac1 & Ar).
  { destruct CL as [CL|CL]; [left|right; exact CL]. fold hp hq.
    rewrite <- (sqrt_sqrt (dist2 (p a0) (p a1) (q a0) (q a1))) by apply dist2_nonneg. set (D := sqrt (dist2 (p a0) (p a1) (q a0) (q a1))) in *.
    apply Rabs_le_inv in HP. apply Rabs_le_inv in HQ. pose proof (Rabs_pos (Q - R)) as AB. pose proof (Rle_abs (Q - R)) as AB1. pose proof (Rle_abs (- (Q - R))) as AB2. rewrite Rabs_Ropp in AB2. set (z := Rabs (Q - R)) in *.
    assert (Z1 : sq (hp - hq) <= (52/100 * D) * (52/100 * D)).
    { unfold sq. replace ((hp - hq) * (hp - hq)) with (Rabs (hp - hq) * Rabs (hp - hq)) by (rewrite <- Rabs_mult; apply Rabs_pos_eq, sq_nonneg).
      assert (Rabs (hp - hq) <= 52/100 * D) by (apply Rabs_le; lra). pose proof (Rabs_pos (hp - hq)). apply Rmult_le_compat; lra. }
    assert (Z2 : hp * hq <= (500001 * D) * (500002 * D)). { apply Rmult_le_compat; try lra; try apply sqrt_pos. }
    assert (0 < D * D) by (apply Rmult_lt_0_compat; lra). lra. }
  exists A, hp, hq. rewrite A0, A1, Ac0, Ac1, Ar. split; [exact AA|]. auto 10.
Qed.

(** *** Arcs with a radius. *)
Lemma radius_asked X pi c m l c' m' ws a0 a1 y r p q : line_words (g_f X) l ws -> reached (g_f X) pi c m ->
  g_line (g_f X) pi c m l = Ok (c', m') -> made_motion c' m' -> is_arc_type (sm_type m') ->
  arc_axes (s_plane (g_st c')) = (a0, a1) -> (forall i, (i < 3)%nat -> ~ has_letter ws (fst (offset_letter i))) -> has_value ws cR y -> float64 y r -> sensible r ->
  at64 X (s_cur (g_st c)) p -> at64 X (s_cur (g_st c')) q -> Rabs (p a0) <= 1000000 -> Rabs (p a1) <= 1000000 ->
  let R := mm (s_unit (g_st c')) r in let dd := dist2 (p a0) (p a1) (q a0) (q a1) in
  Rabs R <= 400000 -> / 1000000 <= dd -> sq R <= 250000000000 * dd -> 1000 * dd <= 3999 * sq R ->
  exists A hp hq e0 e1, arc_asked X m' (s_cur (g_st c)) (s_cur (g_st c')) p q A hp hq /\ ar_0 A = a0 /\ ar_1 A = a1 /\
    centre_of (is_cw (sm_type m')) R (p a0) (p a1) (q a0) (q a1) e0 e1 /\
    let e := / 1000000000 + Rabs R / 5000000000000 in
    Rabs (ar_c0 A - e0) <= e /\ Rabs (ar_c1 A - e1) <= e /\ Rabs (ar_r A - Rabs R) <= / 1000000000 /\ Rabs (hp - Rabs R) <= 2 * e /\ Rabs (hq - Rabs R) <= 2 * e.
Proof.
  intros LW RE H MM AT EA NO V0 F0 S0 AP AQ B0 B1 R dd RB D1 D2 D3.
  destruct (radius_near X pi c m l c' m' ws a0 a1 y r p q LW RE H MM AT EA NO V0 F0 S0 AP AQ B0 B1 RB D1 D3) as (P0 & P1 & c0 & c1 & rr & e0 & e1 & C0 & C1 & CR & CE & E0 & E1 & ER).
  fold R in CE, E0, E1, ER. destruct (plane_ok _ _ _ EA) as (L0 & L1 & NE).
  set (hp := sqrt (dist2 c0 c1 (p a0) (p a1))). set (hq := sqrt (dist2 c0 c1 (q a0) (q a1))). pose proof CE as (CP & CQ & _).
  assert (ES : sqrt (sq R) = Rabs R) by (unfold sq; apply sqrt_Rsqr_abs).
  assert (HP : Rabs (hp - Rabs R) <= 2 * (/ 1000000000 + Rabs R / 5000000000000)).
  { pose proof (moved c0 c1 e0 e1 (p a0) (p a1)) as MV. rewrite CP, ES in MV. fold hp in MV. lra. }
  assert (HQ : Rabs (hq - Rabs R) <= 2 * (/ 1000000000 + Rabs R / 5000000000000)).
  { pose proof (moved c0 c1 e0 e1 (q a0) (q a1)) as MV. rewrite CQ, ES in MV. fold hq in MV. lra. }
  destruct (asked_any X m' (s_cur (g_st c)) (s_cur (g_st c')) p q a0 a1 c0 c1 rr P0 P1 C0 C1 CR AT AP AQ L0 L1) as (A & AA & A0 & A1 & Ac0 & Ac1 & Ar).
  { left. fold hp hq dd. pose proof (Rabs_pos R) as RP. apply Rabs_le_inv in HP. apply Rabs_le_inv in HQ.
    assert (SR : sq R = Rabs R * Rabs R) by (unfold sq; rewrite <- Rabs_mult, Rabs_pos_eq by apply sq_nonneg; reflexivity).
    assert (R1 : / 10000 <= Rabs R). { apply Rnot_lt_le. intro C. assert (Rabs R * Rabs R <= / 10000 * / 10000) by (apply Rmult_le_compat; lra). lra. }
    assert (Z1 : sq (hp - hq) <= / 1000000 * / 1000000).
    { unfold sq. replace ((hp - hq) * (hp - hq)) with (Rabs (hp - hq) * Rabs (hp - hq)) by (rewrite <- Rabs_mult; apply Rabs_pos_eq, sq_nonneg).
      assert (Rabs (hp - hq) <= / 1000000) by (apply Rabs_le; lra). pose proof (Rabs_pos (hp - hq)). apply Rmult_le_compat; lra. }
    assert (Z2 : hp * hq <= (1001/1000 * Rabs R) * (1001/1000 * Rabs R)) by (apply Rmult_le_compat; try apply sqrt_pos; lra).
    lra. }
  exists A, hp, hq, e0, e1. rewrite A0, A1, Ac0, Ac1, Ar. split; [exact AA|]. cbv zeta. auto 10.
Qed.

(** "G3 X0 Y8 I-3 J4 F600" as the first line of a program. *)
Lemma turn_words X : let d := nofZ (g_f X) in let p := fun _ : nat => 0 in let q := ex_at [0; 8; 0]%Z in let line := txt "G3 X0 Y8 I-3 J4 F600" in
  reached (g_f X) pi_f (gcode0 (g_f X)) (sm_new (g_f X)) /\ at64 X (s_cur (g_st (gcode0 (g_f X)))) p /\
  (exists c m ws, line_words (g_f X) line ws /\ g_line (g_f X) pi_f (gcode0 (g_f X)) (sm_new (g_f X)) line = Ok (c, m) /\ made_motion c m /\ is_arc_type (sm_type m) /\
    arc_axes (s_plane (g_st c)) = (0, 1)%nat /\ s_unit (g_st c) = G21 /\ at64 X (s_cur (g_st c)) q /\
    has_value ws (fst (offset_letter 0)) (d (-3)%Z) /\ has_value ws (fst (offset_letter 1)) (d 4%Z) /\ float64 (d (-3)%Z) (-3) /\ float64 (d 4%Z) 4 /\ sensible (-3) /\ sensible 4) /\
  sqrt (sq (mm G21 (-3)) + sq (mm G21 4)) = 5 /\ sqrt (dist2 (p 0%nat + mm G21 (-3)) (p 1%nat + mm G21 4) (q 0%nat) (q 1%nat)) = 5 /\ sqrt (dist2 (p 0%nat) (p 1%nat) (q 0%nat) (q 1%nat)) = 8 /\
  5 / 500000 + 2 * Rabs (5 - 5) + / 1000000 <= 8.
Proof.
  cbv zeta. destruct (prog_example X) as (_ & _ & _ & _ & _ & J6 & _ & J8 & _). split; [exact J6|]. split.
  { intros i Hi. replace 0 with (ex_at [0; 0; 0]%Z i); [apply J8; auto|]. unfold ex_at. destruct i as [|[|[|i]]]; [reflexivity..|lia]. }
  split.
  - set (line := txt "G3 X0 Y8 I-3 J4 F600"). destruct (getBlock (g_f X) line) as [b|] eqn:E; [|vm_compute in E; discriminate].
    destruct (g_line (g_f X) pi_f (gcode0 (g_f X)) (sm_new (g_f X)) line) as [[c m]|] eqn:E2.
    2: { assert (Q : match g_line (g_f X) pi_f (gcode0 (g_f X)) (sm_new (g_f X)) line with Ok _ => true | UB => false end = true) by (vm_compute; reflexivity). rewrite E2 in Q. discriminate. }
    exists c, m, (b_words b). split; [exists b; auto|]. split; [reflexivity|].
    assert (P : (s_plane (g_st c), s_unit (g_st c), s_cur (g_st c), sm_type m, g_res c) =
      match g_line (g_f X) pi_f (gcode0 (g_f X)) (sm_new (g_f X)) line with Ok (c, m) => (s_plane (g_st c), s_unit (g_st c), s_cur (g_st c), sm_type m, g_res c) | UB => (G18, G21, [], mt_none, OkContextUpdateOnly) end) by (rewrite E2; reflexivity).
    match type of P with _ = ?r => let y := eval vm_compute in r in change r with y in P end. injection P as P1 P2 P3 P4 P5. vm_compute in E. injection E as <-.
    split. { split; [rewrite P4; discriminate|rewrite P5; discriminate]. } split; [rewrite P4; right; reflexivity|]. rewrite P1. split; [reflexivity|]. split; [exact P2|].
    split. { intros i Hi. rewrite P3. unfold ex_at. destruct i as [|[|[|i]]]; try lia; cbn [nth]; [exact (float64_lit X 0 ltac:(lia))|exact (float64_lit X 8 ltac:(lia))|exact (float64_lit X 0 ltac:(lia))]. }
    split. { eexists. split; [do 3 right; left; reflexivity|]. split; vm_compute; reflexivity. }
    split. { eexists. split; [do 4 right; left; reflexivity|]. split; vm_compute; reflexivity. }
    split; [apply (float64_lit X (-3)); lia|]. split; [apply (float64_lit X 4); lia|].
    split; [right; rewrite Rabs_left; lra|right; rewrite Rabs_pos_eq; lra].
  - unfold ex_at, mm, dist2, sq. cbn [nth].
    split; [rewrite <- (R_sqrt.sqrt_square 5) by lra; f_equal; lra|]. split; [rewrite <- (R_sqrt.sqrt_square 5) by lra; f_equal; lra|].
    split; [transitivity (sqrt (8 * 8)); [f_equal; lra|apply R_sqrt.sqrt_square; lra]|]. rewrite Rminus_eq_0, Rabs_R0. lra.
Qed.
