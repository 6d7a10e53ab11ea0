(** What the offset words of an arc mean in double precision; an example of a program
    with arcs. *)
Require Import String List Arith NArith ZArith Bool Reals Lra Lia ZifyBool ZifyNat ZifyN.
From Coq Require Import Floats.SpecFloat.
From Flocq Require Import Zaux Raux Defs Generic_fmt FLT Float_prop Round_NE Ulp Round_pred Relative BinarySingleNaN.
From Verif Require Import Base BaseProofs Num NumR NumSF MotionModel CtrlModel CtrlSpec ProfileSpec GeomSpec RunSpec GcodeModel GcodeSpec GcodeRSpec GText GStageProofs GBlockProofs GParseProofs GMeaningProofs GLineProofs GArcProofs GPathProofs.
From Verif Require Import FloatSpec FloatRunSpec FloatProgSpec FloatArcSpec FloatProofs FloatClockProofs FloatTrackProofs FloatErrProofs FloatPlanProofs FloatJobProofs FloatLimitProofs FloatReadProofs FloatTextProofs FloatArcProofs FloatBendSpec FloatBendProofs.
Import ListNotations.
Open Scope R_scope.

Lemma has_offset {D} (b : @block D) : GBlockProofs.counted b -> (exists ch, In ch [cI; cJ; cK] /\ has_letter (b_words b) ch) -> hasOffset b = true.
Proof.
  intros (_ & _ & _ & _ & _ & _ & CO & CR). unfold hasOffset. rewrite CO, !N.ltb_lt, !cnt_pos. unfold tst.
  intros (ch & I & w & Iw & E). exists w. split; [exact Iw|]. apply let_in_spec. now rewrite E.
Qed.
(** In any arithmetic. *)
Lemma circle_any {D} (K : num D) pi c m l c' m' ws a0 a1 y0 y1 : line_words K l ws -> sized (g_st c) -> g_line K pi c m l = Ok (c', m') -> made_motion c' m' -> is_arc_type (sm_type m') ->
  arc_axes (s_plane (g_st c')) = (a0, a1) -> has_value ws (fst (offset_letter a0)) y0 -> has_value ws (fst (offset_letter a1)) y1 ->
  let at_ := coord_at K (s_cur (g_st c)) in let v := to_mm K (s_unit (g_st c')) in
  let c0 := nadd K (at_ a0) (v y0) in let c1 := nadd K (at_ a1) (v y1) in
  sm_arc0 m' = a0 /\ sm_arc1 m' = a1 /\ sm_center0 m' = c0 /\ sm_center1 m' = c1 /\
  sm_radius m' = nsqrt K (nadd K (nadd K (nofZ K 0) (sqd K (nsub K (at_ a0) c0))) (sqd K (nsub K (at_ a1) c1))).
Proof.
  intros LW SZ H MM AT EA V0 V1. assert (HH : is_helical (sm_type m') = true) by (destruct AT as [-> | ->]; reflexivity).
  destruct (read_arc K pi c m l c' m' SZ H MM HH) as (PA & _).
  destruct (line_motion K pi c m l c' m' ws LW SZ H) as [(A & _)|(_ & CO & (sP & b & t & KO) & _)]; [contradiction|].
  pose proof (k_calc _ _ _ _ _ _ _ _ _ _ KO) as KC. destruct (calcMotion_fields K pi _ _ _ _ _ KC) as (T & _). cbn [sm_type sm_with_type] in T.
  destruct (plane_ok _ _ _ EA) as (L0 & L1 & NE).
  assert (LV : forall a o, (a < 3)%nat -> has_value ws (fst (offset_letter a)) o -> letter K sP (snd (offset_letter a)) = o).
  { intros a o La V. destruct (seven_offset a La) as (I7 & IV). rewrite (surjective_pairing (offset_letter a)) in I7, IV. destruct (seven_ne _ _ I7) as (_ & NF).
    rewrite (k_letters _ _ _ _ _ _ _ _ _ _ KO _ NF). pose proof CO as (NG & NL). destruct (letters_lemma K pi c m l c' m' ws LW CO SZ H) as (A1 & _).
    destruct (A1 _ _ I7) as [V'|(_ & N)]; [exact (value_unique ws _ _ _ _ NL IV V' V)|]. destruct V as (w & Iw & E & _). exfalso. apply N. exists w. auto. }
  assert (HO : hasOffset b = true).
  { destruct (k_b _ _ _ _ _ _ _ _ _ _ KO) as (EW & CB). apply (has_offset b CB). rewrite EW.
    exists (fst (offset_letter a0)). split; [destruct a0 as [|[|]]; cbn; auto|]. destruct V0 as (w & I & E & _). exists w. auto. }
  assert (HT : is_helical (sm_type (sm_with_type t (sm_with_type mt_none m))) = true) by (cbn [sm_type sm_with_type]; rewrite <- T; exact HH).
  destruct (arc_circle K pi _ _ _ _ _ HT HO KC) as (C0 & C1 & CR).
  assert (P0 : sm_arc0 m' = a0 /\ sm_arc1 m' = a1). { change plane_axes with arc_axes in PA. rewrite EA in PA. injection PA as -> ->. auto. }
  destruct P0 as (P0 & P1). rewrite P0, P1 in *.
  assert (CA : forall a y, (a < 3)%nat -> has_value ws (fst (offset_letter a)) y -> center_axis K sP a = nadd K (coord_at K (s_cur (g_st c)) a) (to_mm K (s_unit (g_st c')) y)).
  { intros a y La V. unfold center_axis. rewrite to_mm_in, (k_unit _ _ _ _ _ _ _ _ _ _ KO), (k_cur _ _ _ _ _ _ _ _ _ _ KO). rewrite <- (LV a y La V). destruct a as [|[|[|a]]]; [reflexivity..|lia]. }
  rewrite (CA a0 y0 L0 V0) in C0. rewrite (CA a1 y1 L1 V1) in C1. cbv zeta.
  split; [reflexivity|]. split; [reflexivity|]. split; [exact C0|]. split; [exact C1|]. rewrite CR, C0, C1, (k_cur _ _ _ _ _ _ _ _ _ _ KO). reflexivity.
Qed.
Lemma circle_near X pi c m l c' m' ws a0 a1 y0 y1 o0 o1 p : line_words (g_f X) l ws -> reached (g_f X) pi c m -> g_line (g_f X) pi c m l = Ok (c', m') -> made_motion c' m' -> is_arc_type (sm_type m') ->
  arc_axes (s_plane (g_st c')) = (a0, a1) -> has_value ws (fst (offset_letter a0)) y0 -> has_value ws (fst (offset_letter a1)) y1 ->
  float64 y0 o0 -> float64 y1 o1 -> sensible o0 -> sensible o1 -> at64 X (s_cur (g_st c)) p -> Rabs (p a0) <= 1000000 -> Rabs (p a1) <= 1000000 ->
  let v := mm (s_unit (g_st c')) in / 1000 <= sqrt (sq (v o0) + sq (v o1)) <= 400000 ->
  sm_arc0 m' = a0 /\ sm_arc1 m' = a1 /\
  exists c0 c1 r, float64 (sm_center0 m') c0 /\ float64 (sm_center1 m') c1 /\ float64 (sm_radius m') r /\
    Rabs (c0 - (p a0 + v o0)) <= / 1000000000 /\ Rabs (c1 - (p a1 + v o1)) <= / 1000000000 /\ Rabs (r - sqrt (sq (v o0) + sq (v o1))) <= / 200000000.
Proof.
  intros LW RE H MM AT EA V0 V1 F0 F1 S0 S1 AP B0 B1 v RB.
  destruct (circle_any _ pi c m l c' m' ws a0 a1 y0 y1 LW (reached_sized _ _ _ _ RE) H MM AT EA V0 V1) as (P0 & P1 & C0 & C1 & CR). cbv zeta in C0, C1, CR.
  split; [exact P0|]. split; [exact P1|]. destruct (plane_ok _ _ _ EA) as (L0 & L1 & NE).
  pose proof (sq_nonneg (v o0)) as Q0. pose proof (sq_nonneg (v o1)) as Q1. unfold sq in RB |- *. set (R0 := sqrt _) in *.
  assert (RR : R0 * R0 = v o0 * v o0 + v o1 * v o1) by (apply sqrt_sqrt; lra).
  assert (VB : Rabs (v o0) <= 400000 /\ Rabs (v o1) <= 400000).
  { assert (R0 * R0 <= 400000 * 400000) by (apply Rmult_le_compat; lra). split.
    - rewrite <- (Rabs_pos_eq 400000) by lra. apply Rsqr_le_abs_0. unfold Rsqr. lra.
    - rewrite <- (Rabs_pos_eq 400000) by lra. apply Rsqr_le_abs_0. unfold Rsqr. lra. }
  assert (AX : forall a y o, (a < 3)%nat -> float64 y o -> sensible o -> Rabs (p a) <= 1000000 -> Rabs (v o) <= 400000 ->
    exists ca ua, fin64 (nadd (g_f X) (coord_at (g_f X) (s_cur (g_st c)) a) (to_mm (g_f X) (s_unit (g_st c')) y)) ca /\ Rabs (ca - (p a + v o)) <= / 1000000000 /\
      fin64 (nsub (g_f X) (coord_at (g_f X) (s_cur (g_st c)) a) (nadd (g_f X) (coord_at (g_f X) (s_cur (g_st c)) a) (to_mm (g_f X) (s_unit (g_st c')) y))) ua /\ Rabs (ua + v o) <= / 1000000000).
  { intros a y o La Fy So Ba Bo. destruct (mm_near X (s_unit (g_st c')) y o Fy So) as (z & Fz & Nz & _). fold v in Nz. unfold nearly in Nz.
    pose proof (fin_float64 _ _ Fz) as Gz. pose proof (fin_float64 _ _ (AP a La)) as Gp.
    apply Rabs_le_inv in Ba. assert (ZE : Rabs (z - v o) <= / 5000000000) by lra. apply Rabs_le_inv in ZE. apply Rabs_le_inv in Bo.
    assert (PB : Rabs (p a + z) <= 1500000) by (apply Rabs_le; lra).
    assert (T1 := fin_add _ _ prec53 max53 _ _ _ _ Gp Gz ltac:(apply small53; lra)).
    pose proof (rnd53_err (p a + z)) as E1. unfold eta in E1. fold (rnd53 (p a + z)) in T1. set (ca := rnd53 (p a + z)) in *. apply Rabs_le_inv in PB.
    assert (E1' : Rabs (ca - (p a + z)) <= / 5000000000). { eapply Rle_trans; [exact E1|]. assert (Rabs (p a + z) <= 1500000) by (apply Rabs_le; lra). lra. } apply Rabs_le_inv in E1'. clear E1.
    assert (DB : Rabs (p a - ca) <= 500000) by (apply Rabs_le; lra).
    assert (T2 := fin_sub _ _ prec53 max53 _ _ _ _ Gp T1 ltac:(apply small53; lra)).
    pose proof (rnd53_err (p a - ca)) as E2. unfold eta in E2. assert (E2' : Rabs (rnd53 (p a - ca) - (p a - ca)) <= / 5000000000) by lra. apply Rabs_le_inv in E2'.
    exists ca, (rnd53 (p a - ca)). split; [exact T1|]. split; [apply Rabs_le; lra|]. split; [exact T2|]. apply Rabs_le. lra. }
  destruct (AX a0 y0 o0 L0 F0 S0 B0 (proj1 VB)) as (c0 & u0 & G0 & E0 & U0 & D0). destruct (AX a1 y1 o1 L1 F1 S1 B1 (proj2 VB)) as (c1 & u1 & G1 & E1 & U1 & D1).
  pose proof (norm_lip u0 u1 (- v o0) (- v o1)) as NL. replace (- v o0 * - v o0 + - v o1 * - v o1) with (v o0 * v o0 + v o1 * v o1) in NL by ring. fold R0 in NL.
  unfold Rminus in NL at 2 3. rewrite !Ropp_involutive in NL. assert (NL' : Rabs (sqrt (u0 * u0 + u1 * u1) - R0) <= / 500000000) by lra. apply Rabs_le_inv in NL'. clear NL.
  pose proof (sq_nonneg u0) as W0. pose proof (sq_nonneg u1) as W1.
  set (R1 := sqrt (u0 * u0 + u1 * u1)) in *. assert (RR1 : R1 * R1 = u0 * u0 + u1 * u1) by (apply sqrt_sqrt; lra).
  assert (LO : 9 / 10000 * (9 / 10000) <= R1 * R1) by (apply Rmult_le_compat; lra). assert (HI : R1 * R1 <= 400001 * 400001) by (apply Rmult_le_compat; lra).
  destruct (fin_square X _ _ U0 ltac:(lra)) as (SF & SG).
  assert (Z0 := fin_add _ _ prec53 max53 _ _ _ _ (fin_zero 53 1024 false) SF). rewrite Rplus_0_l in Z0. fold (rnd53 (rnd53 (u0 * u0))) in Z0. rewrite (rnd53_id _ (rnd53_format _)) in Z0.
  specialize (Z0 ltac:(unfold small; fold (rnd53 (rnd53 (u0 * u0))); rewrite (rnd53_id _ (rnd53_format _)); apply small53; rewrite Rabs_pos_eq; lra)).
  destruct (length2_any X _ _ u0 u1 Z0 SG U1 ltac:(lra)) as (len & FL & LE & _). fold R1 in LE.
  exists c0, c1, len. rewrite C0, C1, CR. split; [apply float64_fin; exact G0|]. split; [apply float64_fin; exact G1|]. split; [apply float64_fin; exact FL|]. split; [exact E0|]. split; [exact E1|].
  apply Rabs_le_inv in LE. unfold E53 in LE. apply Rabs_le. lra.
Qed.
(** The feed of an arc. *)
Lemma arc_feed_any {D} (K : num D) pi c m l c' m' ws : line_words K l ws -> sized (g_st c) -> g_line K pi c m l = Ok (c', m') -> made_motion c' m' -> is_arc_type (sm_type m') ->
  forall x, active_feed K ws (letter K (g_st c) LtF) x ->
    sm_vFeed m' = match s_feed (g_st c') with G93 => ndiv K (nmul K (sm_length m') x) (nofZ K 60) | G94 => ndiv K (to_mm K (s_unit (g_st c')) x) (nofZ K 60) end.
Proof.
  intros LW SZ H MM AT x AF. assert (HH : is_helical (sm_type m') = true) by (destruct AT as [-> | ->]; reflexivity).
  destruct (line_motion K pi c m l c' m' ws LW SZ H) as [(A & _)|(_ & CO & (sP & b & t & KO) & _)]; [contradiction|].
  pose proof (k_calc _ _ _ _ _ _ _ _ _ _ KO) as KC. destruct (calcMotion_fields K pi _ _ _ _ _ KC) as (T & _). cbn [sm_type sm_with_type] in T.
  assert (HT : is_helical (sm_type (sm_with_type t (sm_with_type mt_none m))) = true) by (cbn [sm_type sm_with_type]; rewrite <- T; exact HH).
  destruct (arc_calc K pi _ _ _ _ _ HT KC) as (_ & _ & _ & _ & S6). rewrite S6. rewrite (k_feed _ _ _ _ _ _ _ _ _ _ KO).
  assert (EX : letter K sP LtF = x).
  { destruct CO as (_ & NL). destruct AF as [(V & P)|(NF & NM & E)].
    - destruct (k_F _ _ _ _ _ _ _ _ _ _ KO) as [(V' & _)|(_ & [N|(z & V' & P')])].
      + apply (value_unique ws cF LtF _ _ NL); [unfold value_letters; cbn; auto 20|exact V'|exact V].
      + destruct V as (w & I & E & _). exfalso. apply N. exists w. auto.
      + assert (z = x) as -> by (apply (value_unique ws cF LtF _ _ NL); [unfold value_letters; cbn; auto 20|exact V'|exact V]). congruence.
    - destruct (k_F _ _ _ _ _ _ _ _ _ _ KO) as [((w & I & E' & _) & _)|([((l0 & n0 & v0 & I & HF) & _)|(_ & E')] & _)].
      + exfalso. apply NF. exists w. auto.
      + destruct (NM _ _ _ I HF).
      + rewrite E'. now symmetry. }
  rewrite EX. unfold in_mm, to_mm. rewrite (k_unit _ _ _ _ _ _ _ _ _ _ KO). reflexivity.
Qed.
Lemma arc_feed_near X pi c m l c' m' ws : line_words (g_f X) l ws -> reached (g_f X) pi c m -> g_line (g_f X) pi c m l = Ok (c', m') -> made_motion c' m' -> is_arc_type (sm_type m') ->
  forall x f, active_feed (g_f X) ws (letter (g_f X) (g_st c) LtF) x -> float64 x f -> sensible f -> s_feed (g_st c') = G94 ->
     exists v, float64 (sm_vFeed m') v /\ nearly 5 v (mm (s_unit (g_st c')) f / 60).
Proof.
  intros LW RE H MM AT x f AF Fx Sf E94. rewrite (arc_feed_any _ pi c m l c' m' ws LW (reached_sized _ _ _ _ RE) H MM AT x AF), E94.
  destruct (mm_near X (s_unit (g_st c')) x f Fx Sf) as (y & Fy & Ny & _ & Yb). specialize (Yb Sf).
  pose proof (fin_float64 _ _ Fy) as Gy. pose proof (fin_float64 _ _ (float64_lit X 60 ltac:(lia))) as G60.
  pose proof (nearly_scale 3 y _ 60 Ny ltac:(lra)) as N2.
  assert (Z : mm (s_unit (g_st c')) f / 60 = 0 \/ / 100000000000000000000000000000000000 <= Rabs (mm (s_unit (g_st c')) f / 60)).
  { unfold Rdiv. rewrite Rabs_mult, (Rabs_pos_eq (/ 60)) by lra. destruct (s_unit (g_st c')); cbn [mm]; [|rewrite Rabs_mult, (Rabs_pos_eq (254/10)) by lra]; (destruct Sf as [-> |Sf]; [left; lra|right; lra]). }
  pose proof (nearly_rnd 3 _ _ ltac:(lra) N2 Z) as N3. exists (rnd53 (y / 60)). split; [|eapply nearly_weak; [exact N3|lra]].
  apply float64_fin. refine (fin_div _ _ prec53 max53 _ _ _ _ Gy G60 _ _); [lra|]. apply small53. unfold Rdiv. rewrite Rabs_mult, (Rabs_pos_eq (/ 60)) by lra. destruct Yb as [-> |Yb]; [rewrite Rabs_R0; lra|lra].
Qed.

(** *** A library that is accurate enough exists. *)
Lemma exact_funs_ok X : trig_ok (exact_funs X) /\ atan_ok (exact_funs X).
Proof.
  split; [exact (exact_trig_ok X)|]. intros y x ry rx (_ & Ey) (_ & Ex) P. cbn [exact_funs fatan2]. unfold rounded2. rewrite Ey, Ex.
  set (t := ratan2 ry rx). destruct (archimed (t * 1152921504606846976)) as (U1 & U2). set (n := up (t * 1152921504606846976)) in *.
  assert (E1 : F2R (Float radix2 n (-60)) = IZR n * / 1152921504606846976). { unfold F2R. cbn [Fnum Fexp]. change (bpow radix2 (-60)) with (/ 1152921504606846976). reflexivity. }
  pose proof (ratan2_range ry rx) as RG. fold t in RG. pose proof PI_b as PB.
  assert (B : Rabs (IZR n * / 1152921504606846976) <= 33/10) by (apply Rabs_le; lra).
  exists (rnd53 (F2R (Float radix2 n (-60)))), t. rewrite E1. split.
  { apply float64_fin. rewrite <- E1. apply (fin_normalize _ _ prec53 max53). apply small53. rewrite E1. lra. }
  pose proof (rnd53_err (IZR n * / 1152921504606846976)) as E2. apply Rabs_le_inv in E2. unfold eta in E2. split; [apply Rabs_le; lra|]. split; [apply Rabs_le; lra|].
  destruct (ratan2_spec ry rx P) as (A1 & A2). fold t in A1, A2. auto.
Qed.

(** *** An example. *)
Lemma bends_run X : exists c m outs, GcodeModel.g_run (g_f X) pi_f (gcode0 (g_f X)) (sm_new (g_f X)) (map txt ex_bends) = Ok (c, m, outs) /\
  map (fun o => (g_res (fst o), sm_type (snd o))) outs = [(OkContextUpdateOnly, mt_none); (OkContextUpdateAndMotion, feedLinear); (OkContextUpdateAndMotion, feedHelicalCCW); (OkContextUpdateAndMotion, feedHelicalCW)] /\
  map (fun o => s_cur (g_st (fst o))) (passed_on outs) = [map (nofZ (g_f X)) [20; 0; 0]%Z; map (nofZ (g_f X)) [0; 20; 0]%Z; map (nofZ (g_f X)) [20; 0; 10]%Z] /\
  map (fun o => sm_vFeed (snd o)) (passed_on outs) = [nofZ (g_f X) 20; nofZ (g_f X) 20; nofZ (g_f X) 20] /\
  map (fun o => sm_type (snd o)) (passed_on outs) = [feedLinear; feedHelicalCCW; feedHelicalCW] /\
  map (fun o => (sm_arc0 (snd o), sm_arc1 (snd o), sm_center0 (snd o), sm_center1 (snd o), sm_radius (snd o))) (skipn 1 (passed_on outs)) =
    [(0%nat, 1%nat, nofZ (g_f X) 0, nofZ (g_f X) 0, nofZ (g_f X) 20); (0%nat, 1%nat, nofZ (g_f X) 0, nofZ (g_f X) 0, nofZ (g_f X) 20)].
Proof.
  destruct (GcodeModel.g_run (g_f X) pi_f (gcode0 (g_f X)) (sm_new (g_f X)) (map txt ex_bends)) as [[[c m] outs]|] eqn:E.
  - exists c, m, outs. split; [reflexivity|].
    assert (P : forall B (f : list (@gcode sf * smotion sf) -> B) d, f outs = match GcodeModel.g_run (g_f X) pi_f (gcode0 (g_f X)) (sm_new (g_f X)) (map txt ex_bends) with Ok (_, _, o) => f o | UB => d end) by (intros; rewrite E; reflexivity).
    split; [rewrite (P _ (map (fun o => (g_res (fst o), sm_type (snd o)))) []); vm_compute; reflexivity|].
    split; [rewrite (P _ (fun o => map (fun o => s_cur (g_st (fst o))) (passed_on o)) []); vm_compute; reflexivity|].
    split; [rewrite (P _ (fun o => map (fun o => sm_vFeed (snd o)) (passed_on o)) []); vm_compute; reflexivity|].
    split; [rewrite (P _ (fun o => map (fun o => sm_type (snd o)) (passed_on o)) []); vm_compute; reflexivity|].
    rewrite (P _ (fun o => map (fun o => (sm_arc0 (snd o), sm_arc1 (snd o), sm_center0 (snd o), sm_center1 (snd o), sm_radius (snd o))) (skipn 1 (passed_on o))) []); vm_compute; reflexivity.
  - exfalso. assert (Q : match GcodeModel.g_run (g_f X) pi_f (gcode0 (g_f X)) (sm_new (g_f X)) (map txt ex_bends) with Ok _ => true | UB => false end = true) by (vm_compute; reflexivity). rewrite E in Q. discriminate.
Qed.
Lemma bends_example X : let A := sf_arith X in let M := cnc3axis A in let fo := nofZ (aF A) 1 in let k := c_init A 375 (tickWidth A) in
  let x0 := ex_at [0; 0; 0]%Z in let stops := [mkStop (ex_at [20; 0; 0]%Z) None; mkStop (ex_at [0; 20; 0]%Z) (Some ex_left); mkStop (ex_at [20; 0; 10]%Z) (Some ex_back)] in
  funit_ok X M ex_unit /\ shop_ok X M ex_unit ex_shop /\ float32 (tickWidth A) (fu_W ex_unit) /\ idle X k (tickWidth A) fo /\ pi_ok pi_f /\
  (forall i, (i < 3)%nat -> Rabs (fu_k ex_unit i * x0 i - FloatRunSpec.counted k i) <= 54/100) /\
  reached (g_f X) pi_f (gcode0 (g_f X)) (sm_new (g_f X)) /\ float64 (sm_radius (sm_new (g_f X))) 0 /\ at64 X (s_cur (g_st (gcode0 (g_f X)))) x0 /\
  (exists c m outs, GcodeModel.g_run (g_f X) pi_f (gcode0 (g_f X)) (sm_new (g_f X)) (map txt ex_bends) = Ok (c, m, outs) /\
    reported outs /\ route_fits X ex_unit ex_shop fo (s_cur (g_st (gcode0 (g_f X)))) x0 (passed_on outs) stops [Some 20; Some 20; Some 20]) /\
  (forall i, (i < 3)%nat -> Rabs (fu_k ex_unit i * last (map to_pos stops) x0 i - IZR (nth i [4000; 0; 2000]%Z 0%Z)) < 999/1000 - reach (fu_B ex_unit) (fu_H ex_unit)).
Proof.
  cbv zeta. destruct (prog_example X) as (J1 & J2 & J3 & J4 & J5 & J6 & J7 & J8 & _). cbv zeta in *.
  do 4 (split; [assumption|]). split; [exact pi_f_ok|]. do 4 (split; [assumption|]).
  assert (L32 : forall z, (Z.abs z <= 16777216)%Z -> float32 (nofZ (aF (sf_arith X)) z) (IZR z)) by (intros z Hz; apply fin_float32, fin_lit; auto).
  assert (AT : forall l, (forall i, (Z.abs (nth i l 0) <= 9007199254740992)%Z) -> at64 X (map (nofZ (g_f X)) l) (ex_at l)).
  { intros l Hl i Hi. unfold coord_at, ex_at. change (nofZ (g_f X) 0) with (nofZ (g_f X) 0%Z). rewrite map_nth. apply float64_lit. apply Hl. }
  pose proof PI_b as PB.
  assert (H1 : helix_length ex_left (ex_at [20; 0; 0]%Z) (ex_at [0; 20; 0]%Z) = 10 * PI).
  { unfold helix_length, ex_left, ex_at, third, sq. cbn [ar_r ar_da ar_0 ar_1 Nat.sub nth]. replace (20 * (PI / 2) * (20 * (PI / 2)) + (0 - 0) * (0 - 0)) with (10 * PI * (10 * PI)) by field. apply R_sqrt.sqrt_square. lra. }
  assert (H2 : 31 <= helix_length ex_back (ex_at [0; 20; 0]%Z) (ex_at [20; 0; 10]%Z) <= 34).
  { unfold helix_length, ex_back, ex_at, third, sq. cbn [ar_r ar_da ar_0 ar_1 Nat.sub nth]. replace (20 * - (PI / 2) * (20 * - (PI / 2)) + (10 - 0) * (10 - 0)) with (100 * (PI * PI) + 100) by field.
    assert (314/100 * (314/100) <= PI * PI) by (apply Rmult_le_compat; lra). assert (PI * PI <= 315/100 * (315/100)) by (apply Rmult_le_compat; lra).
    split; [rewrite <- (R_sqrt.sqrt_square 31) by lra|rewrite <- (R_sqrt.sqrt_square 34) by lra]; apply sqrt_le_1_alt; lra. }
  assert (D1 : distance (ex_at [0; 0; 0]%Z) (ex_at [20; 0; 0]%Z) = 20). { unfold distance, ex_at, sq. cbn [nth]. replace ((20 - 0) * (20 - 0) + (0 - 0) * (0 - 0) + (0 - 0) * (0 - 0)) with (20 * 20) by ring. apply R_sqrt.sqrt_square. lra. }
  split.
  { destruct (bends_run X) as (c & m & outs & E & E1 & E2 & E3 & E4 & E5). exists c, m, outs. split; [exact E|]. split.
    - unfold reported. destruct outs as [|o1 [|o2 [|o3 [|o4 [|o5 outs]]]]]; try discriminate E1. cbn [map] in E1. injection E1 as A1 A2 A3 A4 A5 A6 A7 A8.
      do 4 (apply Forall_cons; [intros (NM & _); first [assumption|exfalso; apply NM; assumption]|]). apply Forall_nil.
    - destruct (passed_on outs) as [|o1 [|o2 [|o3 [|o4 os]]]]; try discriminate E2. cbn [map skipn] in E2, E3, E4, E5. injection E2 as A1 A2 A3. injection E3 as V1 V2 V3. injection E4 as T1 T2 T3.
      injection E5 as B1 B2 B3 B4 B5 B6 B7 B8 B9 B10.
      assert (FF : forall o : @gcode sf * smotion sf, sm_vFeed (snd o) = nofZ (g_f X) 20 -> feed_fits ex_shop (nofZ (aF (sf_arith X)) 1) (snd o) (Some 20)).
      { intros o Eo. exists 1. split; [apply (L32 1%Z); lia|]. split; [lra|]. exists 20. rewrite Eo. split; [apply (float64_lit X 20); lia|]. cbn [ex_shop sh_V0 sh_V1]. lra. }
      cbn [route_fits fst snd to_pos].
      split; [rewrite A1; apply (AT [20; 0; 0]%Z); intros [|[|[|[|i]]]]; cbn; lia|]. split.
      { unfold way_fits. cbn [by_arc to_pos]. split; [right; exact T1|]. unfold leg_fits. rewrite D1. cbn [ex_shop ex_unit sh_L0 sh_L1 fu_k fu_B fu_H]. split; [lra|]. intros [|[|[|i]]] Hi; try lia; unfold ex_at; cbn [nth]; (split; [first [left; lra|right; unfold Rabs; destruct (Rcase_abs _); lra]|]); rewrite Rabs_R0; lra. }
      split; [apply FF; exact V1|]. split; [rewrite A2; apply (AT [0; 20; 0]%Z); intros [|[|[|[|i]]]]; cbn; lia|]. split.
      { unfold way_fits. cbn [by_arc to_pos]. exists 20, 20. split.
        - constructor; cbn [ex_left ar_0 ar_1 ar_c0 ar_c1 ar_r ar_a0 ar_da]; auto.
          + rewrite B3, B4, B5. split; [apply (float64_lit X 0); lia|]. split; [apply (float64_lit X 0); lia|apply (float64_lit X 20); lia].
          + unfold seen, ex_at, ex_left, ex_back. cbn [ar_0 ar_1 ar_c0 ar_c1 ar_a0 ar_da nth]. rewrite cos_0, sin_0. lra.
          + unfold seen, ex_at, ex_left, ex_back. cbn [ar_0 ar_1 ar_c0 ar_c1 ar_a0 ar_da nth]. rewrite (Rplus_0_l (PI / 2)), cos_PI2, sin_PI2. lra.
          + rewrite Rabs_R0. lra.
          + right. split; [exact T2|lra].
          + left. rewrite Rabs_pos_eq by lra. lra.
        - constructor; rewrite ?H1; cbn [ex_left ex_shop ex_unit sh_L0 sh_L1 sh_V0 sh_a0 fu_k fu_B fu_H ar_0 ar_1 ar_c0 ar_c1 ar_r ar_a0 ar_da].
          + lra.
          + replace (20 - 20) with 0 by ring. rewrite Rabs_R0. repeat split; lra.
          + lra.
          + cbv zeta. unfold third, ex_at, ex_left, ex_back. cbn [ar_0 ar_1 Nat.sub nth]. rewrite Rabs_R0. split; [left; reflexivity|]. lra.
          + intros i Hi. unfold centre, ex_left, ex_back in *. cbn [ar_0 ar_1 ar_c0 ar_c1]. rewrite (Rabs_pos_eq (PI / 2)) by lra. destruct Hi as [-> | ->]; cbn [Nat.eqb]; rewrite Rabs_R0; lra.
          + intros. lra. }
      split; [apply FF; exact V2|]. split; [rewrite A3; apply (AT [20; 0; 10]%Z); intros [|[|[|[|i]]]]; cbn; lia|]. split; [|split; [apply FF; exact V3|exact I]].
      unfold way_fits. cbn [by_arc to_pos]. exists 20, 20. split.
        * constructor; cbn [ex_back ar_0 ar_1 ar_c0 ar_c1 ar_r ar_a0 ar_da]; auto.
          + rewrite B8, B9, B10. split; [apply (float64_lit X 0); lia|]. split; [apply (float64_lit X 0); lia|apply (float64_lit X 20); lia].
          + unfold seen, ex_at, ex_left, ex_back. cbn [ar_0 ar_1 ar_c0 ar_c1 ar_a0 ar_da nth]. rewrite cos_PI2, sin_PI2. lra.
          + unfold seen, ex_at, ex_left, ex_back. cbn [ar_0 ar_1 ar_c0 ar_c1 ar_a0 ar_da nth]. rewrite Rplus_opp_r, cos_0, sin_0. lra.
          + rewrite Rabs_pos_eq; lra.
          + left. split; [exact T3|lra].
          + left. rewrite Rabs_Ropp, Rabs_pos_eq by lra. lra.
        * set (h := helix_length ex_back _ _) in *. constructor; fold h; cbn [ex_back ex_shop ex_unit sh_L0 sh_L1 sh_V0 sh_a0 fu_k fu_B fu_H ar_0 ar_1 ar_c0 ar_c1 ar_r ar_a0 ar_da].
          + lra.
          + replace (20 - 20) with 0 by ring. rewrite Rabs_R0. repeat split; lra.
          + lra.
          + cbv zeta. unfold third, ex_at, ex_left, ex_back. cbn [ar_0 ar_1 Nat.sub nth]. rewrite Rabs_R0. split; [right; rewrite Rabs_pos_eq; lra|]. lra.
          + intros i Hi. unfold centre, ex_left, ex_back in *. cbn [ar_0 ar_1 ar_c0 ar_c1]. rewrite Rabs_Ropp, (Rabs_pos_eq (PI / 2)) by lra. destruct Hi as [-> | ->]; cbn [Nat.eqb]; rewrite Rabs_R0; lra.
          + intros. lra. }
  intros [|[|[|i]]] Hi; try lia; unfold ex_at, reach, slack; cbn [ex_unit fu_k fu_B fu_H nth last map to_pos]; apply Rabs_def1; lra.
Qed.
Lemma bend_words X : let d := nofZ (g_f X) in reached (g_f X) pi_f (gcode0 (g_f X)) (sm_new (g_f X)) /\ at64 X (s_cur (g_st (gcode0 (g_f X)))) (fun _ => 0) /\
  exists c m ws, line_words (g_f X) ex_bend ws /\ g_line (g_f X) pi_f (gcode0 (g_f X)) (sm_new (g_f X)) ex_bend = Ok (c, m) /\ made_motion c m /\ is_arc_type (sm_type m) /\
    arc_axes (s_plane (g_st c)) = (0, 1)%nat /\ s_unit (g_st c) = G20 /\ s_feed (g_st c) = G94 /\
    has_value ws (fst (offset_letter 0)) (d (-3)%Z) /\ has_value ws (fst (offset_letter 1)) (d 4%Z) /\ active_feed (g_f X) ws (letter (g_f X) (g_st (gcode0 (g_f X))) LtF) (d 10%Z) /\
    float64 (d (-3)%Z) (-3) /\ float64 (d 4%Z) 4 /\ float64 (d 10%Z) 10 /\ sensible (-3) /\ sensible 4 /\ sensible 10 /\
    sqrt (sq (mm G20 (-3)) + sq (mm G20 4)) = 127.
Proof.
  cbv zeta. destruct (prog_example X) as (_ & _ & _ & _ & _ & J6 & _ & J8 & _). split; [exact J6|]. split.
  { intros i Hi. replace 0 with (ex_at [0; 0; 0]%Z i); [apply J8; auto|]. unfold ex_at. destruct i as [|[|[|i]]]; [reflexivity..|lia]. }
  destruct (getBlock (g_f X) ex_bend) as [b|] eqn:E; [|vm_compute in E; discriminate].
  destruct (g_line (g_f X) pi_f (gcode0 (g_f X)) (sm_new (g_f X)) ex_bend) as [[c m]|] eqn:E2.
  2: { assert (Q : match g_line (g_f X) pi_f (gcode0 (g_f X)) (sm_new (g_f X)) ex_bend with Ok _ => true | UB => false end = true) by (vm_compute; reflexivity). rewrite E2 in Q. discriminate. }
  exists c, m, (b_words b). split; [exists b; auto|]. split; [reflexivity|].
  assert (P : (s_plane (g_st c), s_unit (g_st c), s_feed (g_st c), sm_type m, g_res c) =
    match g_line (g_f X) pi_f (gcode0 (g_f X)) (sm_new (g_f X)) ex_bend with Ok (c, m) => (s_plane (g_st c), s_unit (g_st c), s_feed (g_st c), sm_type m, g_res c) | UB => (G18, G21, G93, mt_none, OkContextUpdateOnly) end) by (rewrite E2; reflexivity).
  match type of P with _ = ?r => let y := eval vm_compute in r in change r with y in P end. injection P as P1 P2 P3 P4 P5. vm_compute in E. injection E as <-.
  split. { split; [rewrite P4; discriminate|rewrite P5; discriminate]. } split; [rewrite P4; right; reflexivity|]. rewrite P1. split; [reflexivity|]. split; [exact P2|]. split; [exact P3|].
  split. { eexists. split; [do 4 right; left; reflexivity|]. split; vm_compute; reflexivity. }
  split. { eexists. split; [do 5 right; left; reflexivity|]. split; vm_compute; reflexivity. }
  split. { left. split; [|vm_compute; reflexivity]. eexists. split; [do 6 right; left; reflexivity|]. split; vm_compute; reflexivity. }
  split; [apply (float64_lit X (-3)); lia|]. split; [apply (float64_lit X 4); lia|]. split; [apply (float64_lit X 10); lia|].
  split; [right; rewrite Rabs_left; lra|]. split; [right; rewrite Rabs_pos_eq; lra|]. split; [right; rewrite Rabs_pos_eq; lra|].
  unfold mm, sq. rewrite <- (R_sqrt.sqrt_square 127) by lra. f_equal. lra.
Qed.
