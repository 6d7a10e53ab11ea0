(** What the radius word of an arc means in double precision. *)
Require Import String List Arith NArith ZArith Bool Reals Lra Lia ZifyBool ZifyNat ZifyN.
From Coq Require Import Floats.SpecFloat.
From Flocq Require Import Zaux Raux Defs Generic_fmt FLT Float_prop Round_NE Ulp Round_pred Relative BinarySingleNaN.
From Verif Require Import Base BaseProofs Num NumR NumSF MotionModel CtrlModel CtrlSpec ProfileSpec GeomSpec RunSpec GcodeModel GcodeSpec GcodeRSpec GText GStageProofs GBlockProofs GParseProofs GMeaningProofs GLineProofs GArcProofs GPathProofs.
From Verif Require Import FloatSpec FloatRunSpec FloatProgSpec FloatArcSpec FloatProofs FloatClockProofs FloatTrackProofs FloatErrProofs FloatPlanProofs FloatJobProofs FloatLimitProofs FloatReadProofs FloatTextProofs FloatArcProofs FloatBendSpec FloatBendProofs FloatOffsetProofs FloatRadiusSpec.
Import ListNotations.
Open Scope R_scope.

(** *** In any arithmetic. *)
Section Any.
Context {D : Type} (K : num D) (pi : D).
Definition rad_v (ty : motionType) (r d0 d1 : D) : D :=
  let tmpD := nsqrt K (nadd K (sqd K d0) (sqd K d1)) in
  let tmpH := nmul K (nsqrt K (nsub K (nsub K (nmul K (nmul K (nofZ K 4) r) r) (sqd K d0)) (sqd K d1))) (ndec K 5 1) in
  let v := ndiv K tmpH tmpD in
  let v := match ty with feedHelicalCW => nopp K v | _ => v end in
  if nltb K r (nofZ K 0) then nopp K v else v.
Lemma arc_radius_calc b (s s' : @gstate D) m m' : is_helical (sm_type m) = true -> hasOffset b = false -> hasRadius b = true -> calcMotion K pi b s m = Ok (s', m') ->
  let r := in_mm K s (letter K s LtR) in let d0 := nthZ K (sm_delta m') (sm_arc0 m') in let d1 := nthZ K (sm_delta m') (sm_arc1 m') in
  let v := rad_v (sm_type m) r d0 d1 in
  sm_center0 m' = nadd K (nthZ K (s_cur s) (sm_arc0 m')) (nsub K (nmul K d0 (ndec K 5 1)) (nmul K d1 v)) /\
  sm_center1 m' = nadd K (nthZ K (s_cur s) (sm_arc1 m')) (nadd K (nmul K d1 (ndec K 5 1)) (nmul K d0 v)) /\
  sm_radius m' = if nltb K r (nofZ K 0) then nopp K r else r.
Proof.
  intros HH HO HR H. unfold calcMotion, calcNextPosition in H. cbn beta iota zeta in H.
  set (m1 := setArcAxisFromPlane _ _) in H. set (S := st_next _ s) in H.
  assert (ES : in_mm K S (letter K S LtR) = in_mm K s (letter K s LtR)) by reflexivity. assert (EC : s_cur S = s_cur s) by reflexivity.
  assert (ET : sm_type m1 = sm_type m). { unfold m1, setArcAxisFromPlane. cbn [sm_type]. rewrite HH. destruct (plane_axes _). reflexivity. }
  destruct (calcArcCenterAndRadius K b S m1) as [m2|] eqn:E; [|discriminate]. cbn [rbind] in H. injection H as _ <-. clearbody m1 S.
  assert (E2 : let r := in_mm K s (letter K s LtR) in let d0 := nthZ K (sm_delta m2) (sm_arc0 m2) in let d1 := nthZ K (sm_delta m2) (sm_arc1 m2) in
    let v := rad_v (sm_type m) r d0 d1 in
    sm_center0 m2 = nadd K (nthZ K (s_cur s) (sm_arc0 m2)) (nsub K (nmul K d0 (ndec K 5 1)) (nmul K d1 v)) /\
    sm_center1 m2 = nadd K (nthZ K (s_cur s) (sm_arc1 m2)) (nadd K (nmul K d1 (ndec K 5 1)) (nmul K d0 v)) /\
    sm_radius m2 = if nltb K r (nofZ K 0) then nopp K r else r).
  { unfold calcArcCenterAndRadius in E. rewrite HO, HR in E. destruct (_ && _)%bool; [|discriminate]. cbv zeta in E |- *. rewrite ES, EC, ET in E. unfold rad_v. cbv zeta.
    destruct (nltb K (in_mm K s (letter K s LtR)) (nofZ K 0)); injection E as <-; cbn [sm_with_arc sm_center0 sm_center1 sm_radius sm_arc0 sm_arc1 sm_delta]; auto. }
  clear E. set (m3 := calcArcAngles K pi S m2).
  assert (A3 : sm_arc0 m3 = sm_arc0 m2 /\ sm_arc1 m3 = sm_arc1 m2 /\ sm_delta m3 = sm_delta m2 /\ sm_center0 m3 = sm_center0 m2 /\ sm_center1 m3 = sm_center1 m2 /\ sm_radius m3 = sm_radius m2).
  { unfold m3, calcArcAngles. destruct (if is_helical (sm_type m2) then _ else _) as [sa da]. repeat split. }
  clearbody m3. set (m4 := calcTrajectoryLength K m3).
  assert (A4 : sm_arc0 m4 = sm_arc0 m3 /\ sm_arc1 m4 = sm_arc1 m3 /\ sm_delta m4 = sm_delta m3 /\ sm_center0 m4 = sm_center0 m3 /\ sm_center1 m4 = sm_center1 m3 /\ sm_radius m4 = sm_radius m3) by (repeat split).
  clearbody m4.
  assert (G : let m5 := calcPeripherals K S (calcSpeedAndOrDuration K S m4) in
    sm_arc0 m5 = sm_arc0 m4 /\ sm_arc1 m5 = sm_arc1 m4 /\ sm_delta m5 = sm_delta m4 /\ sm_center0 m5 = sm_center0 m4 /\ sm_center1 m5 = sm_center1 m4 /\ sm_radius m5 = sm_radius m4).
  { cbv zeta. unfold calcPeripherals. destruct (s_spindle S); unfold calcSpeedAndOrDuration; (destruct (match sm_type m4 with traverse => _ | _ => _ end)); repeat split. }
  cbv zeta in G, E2 |- *. set (m5 := calcPeripherals K S _) in *. clearbody m5.
  destruct A3 as (A31 & A32 & A33 & A34 & A35 & A36). destruct A4 as (A41 & A42 & A43 & A44 & A45 & A46). destruct G as (G1 & G2 & G3 & G4 & G5 & G6). destruct E2 as (E1 & E2 & E3).
  rewrite G1, G2, G3, G4, G5, G6, A41, A42, A43, A44, A45, A46, A31, A32, A33, A34, A35, A36. auto.
Qed.
Lemma has_radius (b : @block D) : GBlockProofs.counted b -> has_letter (b_words b) cR -> hasRadius b = true.
Proof.
  intros (_ & _ & _ & _ & _ & _ & CO & CR). unfold hasRadius. rewrite CR, !N.ltb_lt, !cnt_pos. unfold tst.
  intros (w & Iw & E). exists w. split; [exact Iw|]. apply let_in_spec. rewrite E. now left.
Qed.
Lemma no_offset (b : @block D) : GBlockProofs.counted b -> (forall i, (i < 3)%nat -> ~ has_letter (b_words b) (fst (offset_letter i))) -> hasOffset b = false.
Proof.
  intros (_ & _ & _ & _ & _ & _ & CO & CR) NO. destruct (hasOffset b) eqn:E; [|reflexivity]. exfalso. revert E. unfold hasOffset. rewrite CO, !N.ltb_lt, !cnt_pos. unfold tst.
  intros (w & I & E). apply let_in_spec in E. cbn [In] in E.
  destruct E as [E|[E|[E|[]]]]; [apply (NO 0%nat)|apply (NO 1%nat)|apply (NO 2%nat)]; try lia; exists w; split; auto.
Qed.
Lemma radius_any c m l c' m' ws a0 a1 y : line_words K l ws -> sized (g_st c) -> g_line K pi c m l = Ok (c', m') -> made_motion c' m' -> is_arc_type (sm_type m') ->
  arc_axes (s_plane (g_st c')) = (a0, a1) -> (forall i, (i < 3)%nat -> ~ has_letter ws (fst (offset_letter i))) -> has_value ws cR y ->
  let at_ := coord_at K (s_cur (g_st c)) in let to_ := coord_at K (s_cur (g_st c')) in let r := to_mm K (s_unit (g_st c')) y in
  let d0 := nsub K (to_ a0) (at_ a0) in let d1 := nsub K (to_ a1) (at_ a1) in let v := rad_v (sm_type m') r d0 d1 in
  sm_arc0 m' = a0 /\ sm_arc1 m' = a1 /\
  sm_center0 m' = nadd K (at_ a0) (nsub K (nmul K d0 (ndec K 5 1)) (nmul K d1 v)) /\
  sm_center1 m' = nadd K (at_ a1) (nadd K (nmul K d1 (ndec K 5 1)) (nmul K d0 v)) /\
  sm_radius m' = if nltb K r (nofZ K 0) then nopp K r else r.
Proof.
  intros LW SZ H MM AT EA NO V. assert (HH : is_helical (sm_type m') = true) by (destruct AT as [-> | ->]; reflexivity).
  destruct (read_arc K pi c m l c' m' SZ H MM HH) as (PA & _ & DE & _).
  destruct (line_motion K pi c m l c' m' ws LW SZ H) as [(A & _)|(_ & CO & (sP & b & t & KO) & _)]; [contradiction|].
  pose proof (k_calc _ _ _ _ _ _ _ _ _ _ KO) as KC. destruct (calcMotion_fields K pi _ _ _ _ _ KC) as (T & _). cbn [sm_type sm_with_type] in T.
  destruct (plane_ok _ _ _ EA) as (L0 & L1 & NE).
  assert (LR : letter K sP LtR = y).
  { assert (I7 : In (cR, LtR) [(cX, LtX); (cY, LtY); (cZ, LtZ); (cI, LtI); (cJ, LtJ); (cK, LtK); (cR, LtR)]) by (cbn; auto 10).
    assert (IV : In (cR, LtR) value_letters) by (unfold value_letters; cbn; auto 20). destruct (seven_ne _ _ I7) as (_ & NF).
    rewrite (k_letters _ _ _ _ _ _ _ _ _ _ KO _ NF). pose proof CO as (NG & NL). destruct (letters_lemma K pi c m l c' m' ws LW CO SZ H) as (A1 & _).
    destruct (A1 _ _ I7) as [V'|(_ & N)]; [exact (value_unique ws _ _ _ _ NL IV V' V)|]. destruct V as (w & Iw & E & _). exfalso. apply N. exists w. auto. }
  destruct (k_b _ _ _ _ _ _ _ _ _ _ KO) as (EW & CB).
  assert (HO : hasOffset b = false) by (apply (no_offset b CB); rewrite EW; exact NO).
  assert (HR : hasRadius b = true) by (apply (has_radius b CB); rewrite EW; destruct V as (w & I & E & _); exists w; auto).
  assert (HT : is_helical (sm_type (sm_with_type t (sm_with_type mt_none m))) = true) by (cbn [sm_type sm_with_type]; rewrite <- T; exact HH).
  destruct (arc_radius_calc _ _ _ _ _ HT HO HR KC) as (C0 & C1 & CR). cbn [sm_type sm_with_type] in C0, C1, CR. rewrite <- T in *.
  assert (P0 : sm_arc0 m' = a0 /\ sm_arc1 m' = a1). { change plane_axes with arc_axes in PA. rewrite EA in PA. injection PA as -> ->. auto. }
  destruct P0 as (P0 & P1). rewrite P0, P1 in *. cbv zeta. split; [reflexivity|]. split; [reflexivity|].
  assert (DD : forall a, (a < 3)%nat -> nthZ K (sm_delta m') a = nsub K (coord_at K (s_cur (g_st c')) a) (coord_at K (s_cur (g_st c)) a)).
  { intros a La. rewrite DE. destruct a as [|[|[|a]]]; [reflexivity..|lia]. }
  assert (RR : in_mm K sP (letter K sP LtR) = to_mm K (s_unit (g_st c')) y). { rewrite to_mm_in, (k_unit _ _ _ _ _ _ _ _ _ _ KO), LR. reflexivity. }
  rewrite (DD a0 L0), (DD a1 L1), RR, (k_cur _ _ _ _ _ _ _ _ _ _ KO) in *. split; [exact C0|]. split; [exact C1|exact CR].
Qed.
End Any.
(** *** Errors. *)
Lemma rnd_bd x B : Rabs x <= B -> Rabs (rnd53 x - x) <= / 9007199254740992 * B + eta.
Proof. intro H. pose proof (rnd53_err x). lra. Qed.
Lemma prod_err a a0 b b0 e f A B : Rabs (a - a0) <= e -> Rabs (b - b0) <= f -> Rabs a0 <= A -> Rabs b0 <= B -> Rabs (a * b - a0 * b0) <= e * (B + f) + A * f.
Proof.
  intros HE HF HA HB. replace (a * b - a0 * b0) with ((a - a0) * b + a0 * (b - b0)) by ring.
  eapply Rle_trans; [apply Rabs_triang|]. rewrite !Rabs_mult.
  assert (Rabs b <= B + f). { replace b with (b0 + (b - b0)) by ring. eapply Rle_trans; [apply Rabs_triang|]. lra. }
  pose proof (Rabs_pos (a - a0)). pose proof (Rabs_pos b). pose proof (Rabs_pos a0). pose proof (Rabs_pos (b - b0)).
  apply Rplus_le_compat; apply Rmult_le_compat; lra.
Qed.
Lemma abs_near x y e B : Rabs (x - y) <= e -> Rabs y <= B -> Rabs x <= B + e.
Proof. intros H1 H2. apply Rabs_le_inv in H1. apply Rabs_le_inv in H2. apply Rabs_le. lra. Qed.
Lemma near_trans x y z e f : Rabs (x - y) <= e -> Rabs (y - z) <= f -> Rabs (x - z) <= e + f.
Proof. intros H1 H2. apply Rabs_le_inv in H1. apply Rabs_le_inv in H2. apply Rabs_le. lra. Qed.
Lemma fin64_half X : fin64 (ndec (g_f X) 5 1) (1/2).
Proof. apply fin_float64. split; [reflexivity|]. vm_compute ndec. unfold sf_val. f_equal. change (powerRZ 2 (-53)) with (/ (2^53)%R). lra. Qed.

Lemma sqrt_nan x r : fin64 x r -> r < 0 -> SFsqrt 53 1024 x = S754_nan.
Proof.
  intros F N. pose proof (fin_value _ _ _ _ F) as V. destruct x as [s|s| |s m e]; try contradiction; [lra|]. destruct s; [reflexivity|exfalso].
  assert (0 < bpow radix2 e) by apply bpow_gt_0. assert (0 < IZR (Z.pos m)) by (apply IZR_lt; lia). cbn [cond_Zopp] in V. assert (0 < IZR (Z.pos m) * bpow radix2 e) by (apply Rmult_lt_0_compat; auto). lra.
Qed.
Section Num.
Variables (X : sf_funs) (z x0 x1 : sf) (R r d0 d1 e0 e1 : R).
Hypothesis Fz : fin64 z r.
Hypothesis F0 : fin64 x0 e0.
Hypothesis F1 : fin64 x1 e1.
Let rho := Rabs R.
Let D := sqrt (d0 * d0 + d1 * d1).
Hypothesis Nz : Rabs (r - R) <= 3 * (rho / 9007199254740992).
Hypothesis N0 : Rabs (e0 - d0) <= 12/100000000000000000 * D.
Hypothesis N1 : Rabs (e1 - d1) <= 12/100000000000000000 * D.
Hypothesis BR : rho <= 400000.
Hypothesis BD : / 1000 <= D.
Hypothesis BS : D * D <= 4 * (rho * rho).
Let S := 4 * (R * R) - d0 * d0 - d1 * d1.
Let V := sqrt S / 2 / D.
Lemma basic : 0 < D /\ D * D = d0 * d0 + d1 * d1 /\ rho * rho = R * R /\ D <= 2 * rho /\ / 2000 <= rho /\ Rabs d0 <= D /\ Rabs d1 <= D /\
  / 4000000 <= rho * rho <= 400000 * rho /\ rho * rho <= 160000000000.
Proof.
  assert (DP : 0 < D) by lra. split; [exact DP|].
  assert (DD : D * D = d0 * d0 + d1 * d1). { apply sqrt_sqrt. pose proof (sq_nonneg d0). pose proof (sq_nonneg d1). lra. } split; [exact DD|].
  assert (RR : rho * rho = R * R). { unfold rho. rewrite <- Rabs_mult. apply Rabs_pos_eq. apply sq_nonneg. } split; [exact RR|].
  assert (RP : 0 <= rho) by apply Rabs_pos.
  pose proof (sq_nonneg rho) as Sr. assert (D2 : D <= 2 * rho). { apply Rsqr_incr_0; unfold Rsqr; lra. } split; [exact D2|].
  assert (RL : / 2000 <= rho) by lra. split; [exact RL|].
  split. { rewrite <- (Rabs_pos_eq D) by lra. apply Rsqr_le_abs_0. unfold Rsqr. pose proof (sq_nonneg d1). lra. }
  split. { rewrite <- (Rabs_pos_eq D) by lra. apply Rsqr_le_abs_0. unfold Rsqr. pose proof (sq_nonneg d0). lra. }
  assert (L : / 2000 * / 2000 <= rho * rho) by (apply Rmult_le_compat; lra). assert (U : rho * rho <= 400000 * rho) by (apply Rmult_le_compat_r; lra). lra.
Qed.
(** [gam]: how far off the root of a number near S can be, in parts of rho. *)
Variable gam : Rdefinitions.R.
Hypothesis GB : 0 <= gam <= / 1000.
Hypothesis GH : forall h, 0 <= h -> Rabs (h * h - S) <= 8/1000000000000000 * (rho * rho) -> Rabs (h - sqrt S) <= gam * rho.
Definition v_of (z x0 x1 : sf) : sf := ndiv (g_f X) (nmul (g_f X) (nsqrt (g_f X) (nsub (g_f X) (nsub (g_f X) (nmul (g_f X) (nmul (g_f X) (nofZ (g_f X) 4) z) z) (sqd (g_f X) x0)) (sqd (g_f X) x1))) (ndec (g_f X) 5 1))
    (nsqrt (g_f X) (nadd (g_f X) (sqd (g_f X) x0) (sqd (g_f X) x1))).
Lemma v_near : 0 <= V <= rho / D /\ / 2 <= rho / D <= 400000000 /\ ((S < rho * rho / 1000 /\ v_of z x0 x1 = S754_nan) \/
  exists v, fin64 (v_of z x0 x1) v /\ Rabs (v - V) <= (gam / 2 + 4/1000000000000000) * (rho / D)).
Proof. unfold v_of.
  destruct basic as (DP & DD & RR & D2 & RL & B0 & B1 & (RL2 & RU2) & RM).
  assert (S0 : 0 <= S) by (unfold S; lra). assert (SU : S <= 4 * (rho * rho)) by (unfold S; pose proof (sq_nonneg d0); pose proof (sq_nonneg d1); lra).
  (* 4 r r *)
  assert (N4 : fin64 (nofZ (g_f X) 4) 4) by (apply fin_float64; exact (float64_lit X 4 ltac:(lia))).
  assert (BRr : Rabs R <= rho) by (apply Rle_refl).
  assert (NR : Rabs (r - R) <= 34/100000000000000000 * rho) by lra.
  assert (BR' : Rabs r <= 101/100 * rho) by (pose proof (abs_near _ _ _ _ NR BRr); lra).
  assert (A1 : Rabs (4 * r) <= 41/10 * rho). { rewrite Rabs_mult, (Rabs_pos_eq 4) by lra. lra. }
  assert (T1 := fin_mul _ _ prec53 max53 _ _ _ _ N4 Fz ltac:(apply small53; lra)). fold (rnd53 (4 * r)) in T1. pose proof (rnd_bd _ _ A1) as E1. set (t1 := rnd53 (4 * r)) in *.
  assert (E1' : Rabs (t1 - 4 * R) <= 19/10000000000000000 * rho).
  { apply Rabs_le_inv in E1. apply Rabs_le_inv in NR. unfold eta in E1. apply Rabs_le. lra. }
  pose proof (prod_err _ _ _ _ _ _ (4 * rho) rho E1' NR ltac:(rewrite Rabs_mult, (Rabs_pos_eq 4) by lra; lra) BRr) as P2.
  assert (P2' : Rabs (t1 * r - 4 * R * R) <= 329/100000000000000000 * (rho * rho)) by lra. clear P2.
  assert (Q2 : Rabs (4 * R * R) <= 4 * (rho * rho)) by (rewrite Rmult_assoc, <- RR, Rabs_pos_eq; lra).
  assert (A2 : Rabs (t1 * r) <= 41/10 * (rho * rho)) by (pose proof (abs_near _ _ _ _ P2' Q2); lra).
  assert (T2 := fin_mul _ _ prec53 max53 _ _ _ _ T1 Fz ltac:(apply small53; lra)). fold (rnd53 (t1 * r)) in T2. pose proof (rnd_bd _ _ A2) as E2. set (t2 := rnd53 (t1 * r)) in *.
  assert (E2' : Rabs (t2 - 4 * R * R) <= 38/10000000000000000 * (rho * rho)) by (pose proof (near_trans _ _ _ _ _ E2 P2') as Z; unfold eta in Z; lra).
  (* the squares *)
  assert (SQ : forall x e d, fin64 x e -> Rabs (e - d) <= 12/100000000000000000 * D -> Rabs d <= D -> fin64 (sqd (g_f X) x) (rnd53 (e * e)) /\ Rabs (rnd53 (e * e) - d * d) <= 145/100000000000000000 * (rho * rho) /\ 0 <= d * d <= 4 * (rho * rho)).
  { intros x e d F N B. pose proof (sq_nonneg d) as Dn. assert (Bd : d * d <= D * D). { rewrite <- (Rabs_pos_eq (d * d)), Rabs_mult by exact Dn. apply Rmult_le_compat; try apply Rabs_pos; lra. }
    assert (N' : Rabs (e - d) <= 24/100000000000000000 * rho) by lra. assert (B' : Rabs d <= 2 * rho) by lra.
    pose proof (prod_err _ _ _ _ _ _ _ _ N' N' B' B') as P. assert (P' : Rabs (e * e - d * d) <= 97/100000000000000000 * (rho * rho)) by lra. clear P.
    assert (Q : Rabs (d * d) <= 4 * (rho * rho)) by (rewrite Rabs_pos_eq; lra).
    assert (A : Rabs (e * e) <= 41/10 * (rho * rho)) by (pose proof (abs_near _ _ _ _ P' Q); lra).
    assert (T := fin_mul _ _ prec53 max53 _ _ _ _ F F ltac:(apply small53; lra)). split; [exact T|]. pose proof (rnd_bd _ _ A) as E. split; [|lra].
    pose proof (near_trans _ _ _ _ _ E P') as Z. unfold eta in Z. lra. }
  destruct (SQ x0 e0 d0 F0 N0 B0) as (Q0 & QE0 & QB0). destruct (SQ x1 e1 d1 F1 N1 B1) as (Q1 & QE1 & QB1). clear SQ.
  set (s0 := rnd53 (e0 * e0)) in *. set (s1 := rnd53 (e1 * e1)) in *.
  apply Rabs_le_inv in E2'. apply Rabs_le_inv in QE0. apply Rabs_le_inv in QE1.
  assert (R4 : 4 * R * R = 4 * (rho * rho)) by lra.
  assert (A3 : Rabs (t2 - s0) <= 41/10 * (rho * rho)) by (apply Rabs_le; lra).
  assert (T3 := fin_sub _ _ prec53 max53 _ _ _ _ T2 Q0 ltac:(apply small53; lra)). fold (rnd53 (t2 - s0)) in T3. pose proof (rnd_bd _ _ A3) as E3. set (w1 := rnd53 (t2 - s0)) in *. unfold eta in E3. apply Rabs_le_inv in E3.
  assert (A4 : Rabs (w1 - s1) <= 41/10 * (rho * rho)) by (apply Rabs_le; unfold S in *; lra).
  assert (T4 := fin_sub _ _ prec53 max53 _ _ _ _ T3 Q1 ltac:(apply small53; lra)). fold (rnd53 (w1 - s1)) in T4. pose proof (rnd_bd _ _ A4) as E4. set (w2 := rnd53 (w1 - s1)) in *. unfold eta in E4. apply Rabs_le_inv in E4.
  assert (W2 : Rabs (w2 - S) <= 8/1000000000000000 * (rho * rho)) by (apply Rabs_le; unfold S; lra).
  (* the root *)
  set (tau := rho / D). assert (TD : tau * D = rho) by (unfold tau; field; lra).
  assert (TL1 : / 2 <= tau). { apply Rmult_le_reg_r with D; lra. }
  assert (TU1 : tau <= 400000000). { apply Rmult_le_reg_r with D; lra. }
  assert (HS1 : sqrt S * sqrt S = S) by (apply sqrt_sqrt; lra). pose proof (sqrt_pos S) as H1. set (H := sqrt S) in *.
  assert (HU : H <= 2 * rho) by (apply Rsqr_incr_0; unfold Rsqr; lra).
  assert (VV : V * D = H / 2) by (unfold V; fold H; field; lra).
  assert (VB0 : 0 <= V <= tau). { split; apply Rmult_le_reg_r with D; lra. }
  split; [exact VB0|]. split; [lra|]. destruct (Rlt_dec w2 0) as [WN|WP].
  { left. split; [apply Rabs_le_inv in W2; lra|].
    match goal with |- context [nsqrt (g_f X) (nsub (g_f X) ?a ?b)] => assert (ZN : nsqrt (g_f X) (nsub (g_f X) a b) = S754_nan) end.
    { refine (sqrt_nan _ _ T4 WN). } rewrite ZN. reflexivity. }
  right. apply Rnot_lt_le in WP.
  assert (T5 := fin_sqrt _ _ prec53 max53 _ _ T4 WP). fold (rnd53 (sqrt w2)) in T5.
  assert (HS : sqrt w2 * sqrt w2 = w2) by (apply sqrt_sqrt; exact WP).
  pose proof (sqrt_pos w2) as H0. set (h := sqrt w2) in *.
  assert (HE : Rabs (h - H) <= gam * rho) by (apply GH; [exact H0|rewrite HS; exact W2]).
  assert (GR : gam * rho <= / 1000 * rho) by (apply Rmult_le_compat_r; lra).
  assert (BH : Rabs H <= 2 * rho) by (rewrite Rabs_pos_eq; lra).
  assert (A5 : Rabs h <= 21/10 * rho) by (pose proof (abs_near _ _ _ _ HE BH); lra). pose proof (rnd_bd _ _ A5) as E5. set (h1 := rnd53 h) in *.
  assert (E5' : Rabs (h1 - H) <= gam * rho + 3/10000000000000000 * rho) by (pose proof (near_trans _ _ _ _ _ E5 HE) as Z; unfold eta in Z; lra).
  assert (E5h : Rabs (h1 * (1/2) - H / 2) <= gam * rho / 2 + 15/100000000000000000 * rho). { apply Rabs_le_inv in E5'. apply Rabs_le. lra. }
  assert (A6 : Rabs (h1 * (1/2)) <= 11/10 * rho). { assert (Rabs (H / 2) <= rho) as Z by (rewrite Rabs_pos_eq; lra). pose proof (abs_near _ _ _ _ E5h Z). lra. }
  assert (T6 := fin_mul _ _ prec53 max53 _ _ _ _ T5 (fin64_half X) ltac:(apply small53; lra)). fold (rnd53 (h1 * (1/2))) in T6. pose proof (rnd_bd _ _ A6) as E6. set (hh := rnd53 (h1 * (1/2))) in *.
  assert (E6' : Rabs (hh - H / 2) <= gam * rho / 2 + 3/10000000000000000 * rho) by (pose proof (near_trans _ _ _ _ _ E6 E5h) as Z; unfold eta in Z; lra).
  (* the distance *)
  pose proof (norm_lip e0 e1 d0 d1) as NL. fold D in NL. assert (NL' : Rabs (sqrt (e0 * e0 + e1 * e1) - D) <= 24/100000000000000000 * D) by lra. clear NL.
  pose proof (sq_nonneg e0) as Se0. pose proof (sq_nonneg e1) as Se1. assert (RR1 : sqrt (e0 * e0 + e1 * e1) * sqrt (e0 * e0 + e1 * e1) = e0 * e0 + e1 * e1) by (apply sqrt_sqrt; lra).
  assert (LB : / 1000000000 <= e0 * e0 + e1 * e1 <= 900000000000).
  { rewrite <- RR1. set (g := sqrt (e0 * e0 + e1 * e1)) in *. apply Rabs_le_inv in NL'.
    assert (9/10000 * (9/10000) <= g * g) by (apply Rmult_le_compat; lra). assert (g * g <= 900000 * 900000) by (apply Rmult_le_compat; lra). lra. }
  destruct (length2_near X _ _ _ _ F0 F1 LB) as (len & TL & LE & _). set (g := sqrt (e0 * e0 + e1 * e1)) in *. unfold E53 in LE.
  assert (LE' : Rabs (len - D) <= 14/10000000000000000 * D). { apply Rabs_le_inv in LE. apply Rabs_le_inv in NL'. apply Rabs_le. lra. }
  assert (LP : 99/100 * D <= len <= 101/100 * D) by (apply Rabs_le_inv in LE'; lra).
  (* the quotient *)
  assert (HB : Rabs hh <= 101/100 * rho). { assert (Rabs (H / 2) <= rho) as Z by (rewrite Rabs_pos_eq; lra). pose proof (abs_near _ _ _ _ E6' Z). lra. }
  set (v0 := hh / len). assert (VL : v0 * len = hh) by (unfold v0; field; lra).
  assert (VB : Rabs v0 <= 103/100 * tau).
  { apply Rmult_le_reg_r with len; [lra|]. rewrite <- (Rabs_pos_eq len) at 1 by lra. rewrite <- Rabs_mult, VL. assert (tau * (99/100 * D) <= tau * len) by (apply Rmult_le_compat_l; lra). lra. }
  assert (VE : Rabs (v0 - V) <= (gam / 2 + 2/1000000000000000) * tau).
  { apply Rmult_le_reg_r with D; [lra|]. rewrite <- (Rabs_pos_eq D) at 1 by lra. rewrite <- Rabs_mult. replace ((v0 - V) * D) with ((hh - H / 2) - v0 * (len - D)) by (rewrite <- VV, <- VL; ring).
    assert (Z : Rabs (v0 * (len - D)) <= 103/100 * tau * (14/10000000000000000 * D)) by (rewrite Rabs_mult; apply Rmult_le_compat; try apply Rabs_pos; lra).
    replace (103/100 * tau * (14/10000000000000000 * D)) with (103/100 * (14/10000000000000000) * rho) in Z by (rewrite <- TD; ring).
    replace ((gam / 2 + 2/1000000000000000) * tau * D) with (gam * rho / 2 + 2/1000000000000000 * rho) by (rewrite <- TD; field). apply Rabs_le_inv in Z. apply Rabs_le_inv in E6'. apply Rabs_le. lra. }
  assert (T7 := fin_div _ _ prec53 max53 _ _ _ _ T6 TL ltac:(lra) ltac:(apply small53; fold v0; lra)). fold v0 in T7. fold (rnd53 v0) in T7. pose proof (rnd_bd _ _ VB) as E7. unfold eta in E7.
  exists (rnd53 v0). split; [exact T7|]. pose proof (near_trans _ _ _ _ _ E7 VE). lra.
Qed.
End Num.
Section Centre.
Variables (X : sf_funs) (s : bool) (z v0 x0 x1 w0 w1 : sf) (R r d0 d1 e0 e1 v p0 p1 : R).
Hypothesis F0 : fin64 x0 e0.
Hypothesis F1 : fin64 x1 e1.
Hypothesis G0 : fin64 w0 p0.
Hypothesis G1 : fin64 w1 p1.
Hypothesis P0 : Rabs p0 <= 1000000.
Hypothesis P1 : Rabs p1 <= 1000000.
Let rho := Rabs R.
Let D := sqrt (d0 * d0 + d1 * d1).
Variable V : Rdefinitions.R.
Hypothesis Fv : fin64 v0 v.
Hypothesis N0 : Rabs (e0 - d0) <= 12/100000000000000000 * D.
Hypothesis N1 : Rabs (e1 - d1) <= 12/100000000000000000 * D.
Variable kap : Rdefinitions.R.
Hypothesis KB : 0 <= kap <= / 1000.
Hypothesis NV : Rabs (v - V) <= kap * (rho / D).
Hypothesis BV : Rabs V <= rho / D.
Hypothesis BR : rho <= 400000.
Hypothesis BD : / 1000 <= D.
Hypothesis D2 : D <= 2 * rho.
Lemma one_part x y e f d g : fin64 x e -> fin64 y f -> Rabs (e - d) <= 12/100000000000000000 * D -> Rabs d <= D -> Rabs (f - g) <= 12/100000000000000000 * D -> Rabs g <= D ->
  forall w p, fin64 w p -> Rabs p <= 1000000 ->
  (exists c, fin64 (nadd (g_f X) w (nsub (g_f X) (nmul (g_f X) x (ndec (g_f X) 5 1)) (nmul (g_f X) y v0))) c /\ Rabs (c - (p + (d / 2 - g * V))) <= / 1000000000 + (kap + 2/1000000000000000) * rho) /\
  (exists c, fin64 (nadd (g_f X) w (nadd (g_f X) (nmul (g_f X) x (ndec (g_f X) 5 1)) (nmul (g_f X) y v0))) c /\ Rabs (c - (p + (d / 2 + g * V))) <= / 1000000000 + (kap + 2/1000000000000000) * rho).
Proof.
  intros Fx Fy Ne Be Nf Bf w p Fw Bp. set (tau := rho / D) in *. assert (TD : D * tau = rho) by (unfold tau; field; lra).
  assert (TL1 : / 2 <= tau). { apply Rmult_le_reg_l with D; lra. }
  assert (A0 : Rabs (e * (1/2) - d / 2) <= 12/100000000000000000 * rho). { apply Rabs_le_inv in Ne. apply Rabs_le. lra. }
  assert (Q0 : Rabs (d / 2) <= rho). { apply Rabs_le_inv in Be. apply Rabs_le. lra. }
  assert (B0 : Rabs (e * (1/2)) <= 11/10 * rho) by (pose proof (abs_near _ _ _ _ A0 Q0); lra).
  assert (T0 := fin_mul _ _ prec53 max53 _ _ _ _ Fx (fin64_half X) ltac:(apply small53; lra)). fold (rnd53 (e * (1/2))) in T0. pose proof (rnd_bd _ _ B0) as E0. unfold eta in E0. set (a := rnd53 (e * (1/2))) in *.
  assert (E0' : Rabs (a - d / 2) <= 25/100000000000000000 * rho) by (pose proof (near_trans _ _ _ _ _ E0 A0); lra).
  pose proof (prod_err _ _ _ _ _ _ _ _ Nf NV Bf BV) as A1.
  replace (12 / 100000000000000000 * D * (tau + kap * tau) + D * (kap * tau)) with ((12 / 100000000000000000 * (1 + kap) + kap) * (D * tau)) in A1 by ring.
  rewrite TD in A1. assert (KR : 0 <= kap * rho <= / 1000 * rho) by (split; [apply Rmult_le_pos; lra|apply Rmult_le_compat_r; lra]). assert (Q1 : Rabs (g * V) <= rho). { rewrite <- TD, Rabs_mult. apply Rmult_le_compat; try apply Rabs_pos; auto. }
  assert (B1 : Rabs (f * v) <= 101/100 * rho) by (pose proof (abs_near _ _ _ _ A1 Q1); lra).
  assert (T1 := fin_mul _ _ prec53 max53 _ _ _ _ Fy Fv ltac:(apply small53; lra)). fold (rnd53 (f * v)) in T1. pose proof (rnd_bd _ _ B1) as E1. unfold eta in E1. set (b := rnd53 (f * v)) in *.
  assert (E1' : Rabs (b - g * V) <= kap * rho + 4/10000000000000000 * rho) by (pose proof (near_trans _ _ _ _ _ E1 A1); lra). clear A1 E1 E0 A0.
  apply Rabs_le_inv in E0'. apply Rabs_le_inv in E1'. apply Rabs_le_inv in Q0. apply Rabs_le_inv in Q1. apply Rabs_le_inv in Bp.
  assert (L : forall k t, fin64 k (rnd53 t) -> forall u, -2 * rho <= u <= 2 * rho -> Rabs (t - u) <= kap * rho + 8/10000000000000000 * rho -> exists c, fin64 (nadd (g_f X) w k) c /\ Rabs (c - (p + u)) <= / 1000000000 + (kap + 2/1000000000000000) * rho).
  { intros k t Fk u Bu Et. apply Rabs_le_inv in Et. assert (Bt : Rabs t <= 201/100 * rho) by (apply Rabs_le; lra). pose proof (rnd_bd _ _ Bt) as E2. unfold eta in E2. apply Rabs_le_inv in E2. set (t' := rnd53 t) in *.
    assert (Bc : Rabs (p + t') <= 2000000) by (apply Rabs_le; lra).
    assert (T3 := fin_add _ _ prec53 max53 _ _ _ _ Fw Fk ltac:(apply small53; lra)). fold (rnd53 (p + t')) in T3. pose proof (rnd_bd _ _ Bc) as E3. unfold eta in E3. apply Rabs_le_inv in E3.
    exists (rnd53 (p + t')). split; [exact T3|]. apply Rabs_le. lra. }
  split.
  - apply (L _ (a - b)); [|lra|apply Rabs_le; lra]. refine (fin_sub _ _ prec53 max53 _ _ _ _ T0 T1 _). apply small53. apply Rabs_le. lra.
  - apply (L _ (a + b)); [|lra|apply Rabs_le; lra]. refine (fin_add _ _ prec53 max53 _ _ _ _ T0 T1 _). apply small53. apply Rabs_le. lra.
Qed.
End Centre.

Lemma nan_mul X x : nmul (g_f X) x S754_nan = S754_nan.
Proof. destruct x as [[]|[]| |[] ? ?]; reflexivity. Qed.
Lemma nan_add X x : nadd (g_f X) x S754_nan = S754_nan.
Proof. destruct x as [[]|[]| |[] ? ?]; reflexivity. Qed.
Lemma nan_sub X x : nsub (g_f X) x S754_nan = S754_nan.
Proof. destruct x as [[]|[]| |[] ? ?]; reflexivity. Qed.
Lemma radius_gen X gam pi c m l c' m' ws a0 a1 y r p q : line_words (g_f X) l ws -> reached (g_f X) pi c m -> g_line (g_f X) pi c m l = Ok (c', m') -> made_motion c' m' -> is_arc_type (sm_type m') ->
  arc_axes (s_plane (g_st c')) = (a0, a1) -> (forall i, (i < 3)%nat -> ~ has_letter ws (fst (offset_letter i))) -> has_value ws cR y -> float64 y r -> sensible r ->
  at64 X (s_cur (g_st c)) p -> at64 X (s_cur (g_st c')) q -> Rabs (p a0) <= 1000000 -> Rabs (p a1) <= 1000000 ->
  let R := mm (s_unit (g_st c')) r in let dd := dist2 (p a0) (p a1) (q a0) (q a1) in
  Rabs R <= 400000 -> / 1000000 <= dd -> dd <= 4 * sq R ->
  0 <= gam <= / 1000 -> (forall h, 0 <= h -> Rabs (h * h - (4 * sq R - dd)) <= 8/1000000000000000 * sq R -> Rabs (h - sqrt (4 * sq R - dd)) <= gam * Rabs R) ->
  sm_arc0 m' = a0 /\ sm_arc1 m' = a1 /\ ((4 * sq R - dd < sq R / 1000 /\ sm_center0 m' = S754_nan /\ sm_center1 m' = S754_nan) \/
  exists c0 c1 rr e0 e1, float64 (sm_center0 m') c0 /\ float64 (sm_center1 m') c1 /\ float64 (sm_radius m') rr /\
    centre_of (is_cw (sm_type m')) R (p a0) (p a1) (q a0) (q a1) e0 e1 /\
    Rabs (c0 - e0) <= / 1000000000 + (gam / 2 + 6/1000000000000000) * Rabs R /\ Rabs (c1 - e1) <= / 1000000000 + (gam / 2 + 6/1000000000000000) * Rabs R /\ Rabs (rr - Rabs R) <= / 1000000000).
Proof.
  intros LW RE H MM AT EA NO HV Fy Sy AP AQ B0 B1 R dd BR BD BS GB GH.
  destruct (radius_any _ pi c m l c' m' ws a0 a1 y LW (reached_sized _ _ _ _ RE) H MM AT EA NO HV) as (P0 & P1 & C0 & C1 & CR). cbv zeta in C0, C1, CR.
  split; [exact P0|]. split; [exact P1|]. destruct (plane_ok _ _ _ EA) as (L0 & L1 & NE).
  destruct (mm_near X (s_unit (g_st c')) y r Fy Sy) as (z & Fz & Nz & _). fold R in Nz. unfold nearly in Nz. apply fin_float64 in Fz.
  set (zf := to_mm (g_f X) (s_unit (g_st c')) y) in *. set (at_ := coord_at (g_f X) (s_cur (g_st c))) in *. set (to_ := coord_at (g_f X) (s_cur (g_st c'))) in *.
  set (d0 := q a0 - p a0). set (d1 := q a1 - p a1). assert (ED : dd = d0 * d0 + d1 * d1) by (unfold dd, dist2, sq, d0, d1; ring).
  set (D := sqrt (d0 * d0 + d1 * d1)). assert (DD : D * D = d0 * d0 + d1 * d1) by (apply sqrt_sqrt; lra).
  assert (D1 : / 1000 <= D). { apply Rsqr_incr_0; [unfold Rsqr; lra|lra|apply sqrt_pos]. }
  assert (RR : Rabs R * Rabs R = R * R). { rewrite <- Rabs_mult. apply Rabs_pos_eq, sq_nonneg. }
  assert (DS : D * D <= 4 * (Rabs R * Rabs R)) by (unfold sq in BS; lra).
  destruct (basic R d0 d1 BR D1 DS) as (_ & _ & _ & D2 & RL & Bd0 & Bd1 & _ & _). fold D in D2, Bd0, Bd1.
  assert (DF : forall a, (a < 3)%nat -> Rabs (q a - p a) <= D -> fin64 (nsub (g_f X) (to_ a) (at_ a)) (rnd53 (q a - p a)) /\ Rabs (rnd53 (q a - p a) - (q a - p a)) <= 12/100000000000000000 * D).
  { intros a La Ba. split.
    - refine (fin_sub _ _ prec53 max53 _ _ _ _ (fin_float64 _ _ (AQ a La)) (fin_float64 _ _ (AP a La)) _). apply small53. lra.
    - pose proof (rnd_bd _ _ Ba) as E. unfold eta in E. lra. }
  destruct (DF a0 L0 Bd0) as (F0 & N0). destruct (DF a1 L1 Bd1) as (F1 & N1). clear DF. fold d0 in F0, N0. fold d1 in F1, N1.
  set (x0 := nsub (g_f X) (to_ a0) (at_ a0)) in *. set (x1 := nsub (g_f X) (to_ a1) (at_ a1)) in *. set (e0 := rnd53 d0) in *. set (e1 := rnd53 d1) in *.
  assert (SE : 4 * (R * R) - d0 * d0 - d1 * d1 = 4 * sq R - dd) by (rewrite ED; unfold sq; ring).
  destruct (v_near X zf x0 x1 R z d0 d1 e0 e1 Fz F0 F1 Nz N0 N1 BR D1 DS gam GB ltac:(rewrite SE, RR; exact GH)) as (BV & BT & [(SN & VN)|(v & Fv & Nv)]).
  { left. rewrite SE, RR in SN. split; [exact SN|].
    assert (RN : rad_v (g_f X) (sm_type m') zf x0 x1 = S754_nan).
    { unfold rad_v. cbv zeta. unfold v_of in VN. rewrite VN. destruct (sm_type m'); destruct (nltb _ _ _); reflexivity. }
    rewrite C0, C1, RN. rewrite !nan_mul, nan_sub, !nan_add. split; reflexivity. }
  right. fold D in Nv, BV, BT.
  set (S := 4 * (R * R) - d0 * d0 - d1 * d1) in *. set (V := sqrt S / 2 / D) in *.
  assert (RN : R <> 0) by (intro Z; rewrite Z, Rabs_R0 in RL; lra).
  assert (LT : nltb (g_f X) zf (nofZ (g_f X) 0) = rltb R 0).
  { change (nltb (g_f X) zf (nofZ (g_f X) 0)) with (SFltb zf (S754_zero false)). rewrite (fin_ltb _ _ _ _ _ _ Fz (fin_zero 53 1024 false)). apply Rabs_le_inv in Nz. unfold rltb. destruct (Rlt_dec R 0) as [n|n].
    - apply Rlt_bool_true. rewrite Rabs_left in * by lra. lra.
    - apply Rlt_bool_false. rewrite Rabs_pos_eq in * by lra. lra. }
  set (cw := is_cw (sm_type m')). set (sg := fun t : Rdefinitions.R => if Bool.eqb cw (rltb R 0) then t else - t).
  assert (FV : fin64 (rad_v (g_f X) (sm_type m') zf x0 x1) (sg v)).
  { unfold rad_v, sg, cw. cbv zeta. rewrite LT. pose proof (fin_opp _ _ _ _ Fv) as Fo. pose proof (fin_opp _ _ _ _ Fo) as Foo. rewrite Ropp_involutive in Foo.
    destruct AT as [-> | ->]; cbn [is_cw]; destruct (rltb R 0); cbn [Bool.eqb]; [exact Foo|exact Fo|exact Fo|exact Fv]. }
  assert (NV : Rabs (sg v - sg V) <= (gam / 2 + 4/1000000000000000) * (Rabs R / D)).
  { unfold sg. destruct (Bool.eqb _ _); [exact Nv|]. replace (- v - - V) with (- (v - V)) by ring. rewrite Rabs_Ropp. exact Nv. }
  assert (BV' : Rabs (sg V) <= Rabs R / D).
  { unfold sg. destruct (Bool.eqb _ _); [|rewrite Rabs_Ropp]; rewrite Rabs_pos_eq; lra. }
  assert (KB : 0 <= gam / 2 + 4/1000000000000000 <= / 1000) by lra. replace (gam / 2 + 6/1000000000000000) with (gam / 2 + 4/1000000000000000 + 2/1000000000000000) by lra.
  set (vf := rad_v (g_f X) (sm_type m') zf x0 x1) in *. clearbody vf.
  pose proof (fin_float64 _ _ (AP a0 L0)) as G0. pose proof (fin_float64 _ _ (AP a1 L1)) as G1. fold (at_ a0) in G0. fold (at_ a1) in G1.
  destruct (one_part X vf R d0 d1 (sg v) (sg V) FV (gam / 2 + 4/1000000000000000) KB NV BV' BR D1 D2 x0 x1 e0 e1 d0 d1 F0 F1 N0 Bd0 N1 Bd1 (at_ a0) (p a0) G0 B0) as ((k0 & K0 & KE0) & _).
  destruct (one_part X vf R d0 d1 (sg v) (sg V) FV (gam / 2 + 4/1000000000000000) KB NV BV' BR D1 D2 x1 x0 e1 e0 d1 d0 F1 F0 N1 Bd1 N0 Bd0 (at_ a1) (p a1) G1 B1) as (_ & (k1 & K1 & KE1)).
  assert (RF : exists rr, fin64 (sm_radius m') rr /\ Rabs (rr - Rabs R) <= / 1000000000).
  { rewrite CR, LT. unfold rltb. apply Rabs_le_inv in Nz. destruct (Rlt_dec R 0) as [n|n].
    - exists (- z). split; [exact (fin_opp _ _ _ _ Fz)|]. rewrite (Rabs_left R) in * by lra. apply Rabs_le. lra.
    - exists z. split; [exact Fz|]. rewrite (Rabs_pos_eq R) in * by lra. apply Rabs_le. lra. }
  destruct RF as (rr & RF & RE2).
  exists k0, k1, rr, (p a0 + (d0 / 2 - d1 * sg V)), (p a1 + (d1 / 2 + d0 * sg V)).
  split; [rewrite C0; apply float64_fin; exact K0|]. split; [rewrite C1; apply float64_fin; exact K1|]. split; [apply float64_fin; exact RF|].
  split; [|split; [exact KE0|split; [exact KE1|exact RE2]]].
  assert (VD : sg V * sg V * (D * D) = S / 4).
  { replace (sg V * sg V) with (V * V) by (unfold sg; destruct (Bool.eqb _ _); ring). assert (SS : sqrt S * sqrt S = S) by (apply sqrt_sqrt; unfold S; lra).
    unfold V. rewrite <- SS at 3. field. lra. }
  rewrite DD in VD. unfold S in VD. split; [|split; [|split]].
  - unfold dist2, sq. replace (p a0 - (p a0 + (d0 / 2 - d1 * sg V))) with (- (d0 / 2 - d1 * sg V)) by ring. replace (p a1 - (p a1 + (d1 / 2 + d0 * sg V))) with (- (d1 / 2 + d0 * sg V)) by ring. lra.
  - unfold dist2, sq. replace (q a0 - (p a0 + (d0 / 2 - d1 * sg V))) with (d0 / 2 + d1 * sg V) by (unfold d0; field). replace (q a1 - (p a1 + (d1 / 2 + d0 * sg V))) with (d1 / 2 - d0 * sg V) by (unfold d1; field). lra.
  - intro C. unfold on_left. fold d0 d1. replace (d0 * (p a1 + (d1 / 2 + d0 * sg V) - p a1) - d1 * (p a0 + (d0 / 2 - d1 * sg V) - p a0)) with (sg V * (D * D)) by (rewrite DD; field).
    apply Rmult_le_pos; [|lra]. unfold sg, rltb. destruct C as [(-> & C)|(-> & C)]; destruct (Rlt_dec R 0); cbn [Bool.eqb]; lra.
  - intro C. unfold on_left. fold d0 d1. replace (d0 * (p a1 + (d1 / 2 + d0 * sg V) - p a1) - d1 * (p a0 + (d0 / 2 - d1 * sg V) - p a0)) with (- (- sg V * (D * D))) by (rewrite DD; field).
    apply Rge_le, Ropp_0_le_ge_contravar. apply Rmult_le_pos; [|lra]. unfold sg, rltb. destruct C as [(-> & C)|(-> & C)]; destruct (Rlt_dec R 0); cbn [Bool.eqb]; lra.
Qed.
(** Away from half circles. *)
Lemma radius_near X pi c m l c' m' ws a0 a1 y r p q : line_words (g_f X) l ws -> reached (g_f X) pi c m -> g_line (g_f X) pi c m l = Ok (c', m') -> made_motion c' m' -> is_arc_type (sm_type m') ->
  arc_axes (s_plane (g_st c')) = (a0, a1) -> (forall i, (i < 3)%nat -> ~ has_letter ws (fst (offset_letter i))) -> has_value ws cR y -> float64 y r -> sensible r ->
  at64 X (s_cur (g_st c)) p -> at64 X (s_cur (g_st c')) q -> Rabs (p a0) <= 1000000 -> Rabs (p a1) <= 1000000 ->
  let R := mm (s_unit (g_st c')) r in let dd := dist2 (p a0) (p a1) (q a0) (q a1) in
  Rabs R <= 400000 -> / 1000000 <= dd -> 1000 * dd <= 3999 * sq R ->
  sm_arc0 m' = a0 /\ sm_arc1 m' = a1 /\
  exists c0 c1 rr e0 e1, float64 (sm_center0 m') c0 /\ float64 (sm_center1 m') c1 /\ float64 (sm_radius m') rr /\
    centre_of (is_cw (sm_type m')) R (p a0) (p a1) (q a0) (q a1) e0 e1 /\
    Rabs (c0 - e0) <= / 1000000000 + Rabs R / 5000000000000 /\ Rabs (c1 - e1) <= / 1000000000 + Rabs R / 5000000000000 /\ Rabs (rr - Rabs R) <= / 1000000000.
Proof.
  intros LW RE H MM AT EA NO HV Fy Sy AP AQ B0 B1 R dd BR BD BS. assert (SP : 0 <= sq R) by (unfold sq; apply sq_nonneg). pose proof (Rabs_pos R) as RP.
  assert (RR : Rabs R * Rabs R = sq R). { unfold sq. rewrite <- Rabs_mult. apply Rabs_pos_eq, sq_nonneg. }
  destruct (radius_gen X (256/1000000000000000) pi c m l c' m' ws a0 a1 y r p q LW RE H MM AT EA NO HV Fy Sy AP AQ B0 B1 BR BD) as (P0 & P1 & C).
  - fold R dd. lra.
  - lra.
  - fold R dd. intros h H0 W. set (S := 4 * sq R - dd) in *. pose proof (sqrt_pos S) as H1. assert (HS1 : sqrt S * sqrt S = S) by (apply sqrt_sqrt; unfold S; lra).
    assert (HL : Rabs R / 32 <= sqrt S) by (apply Rsqr_incr_0; unfold Rsqr; unfold S in *; lra). assert (RP' : 0 < Rabs R). { destruct RP as [Z|Z]; [exact Z|]. exfalso. rewrite <- Z in RR. lra. }
    apply Rmult_le_reg_r with (Rabs R / 32); [lra|]. apply Rle_trans with (Rabs (h - sqrt S) * (h + sqrt S)); [apply Rmult_le_compat_l; [apply Rabs_pos|lra]|].
    rewrite <- (Rabs_pos_eq (h + sqrt S)) by lra. rewrite <- Rabs_mult. replace ((h - sqrt S) * (h + sqrt S)) with (h * h - S) by (rewrite <- HS1 at 1; ring). lra.
  - split; [exact P0|]. split; [exact P1|]. destruct C as [(C & _)|(c0 & c1 & rr & e0 & e1 & C1 & C2 & C3 & C4 & C5 & C6 & C7)]; [fold R dd in C; lra|].
    exists c0, c1, rr, e0, e1. fold R in C4, C5, C6, C7. split; [exact C1|]. split; [exact C2|]. split; [exact C3|]. split; [exact C4|]. split; [lra|]. split; [lra|exact C7].
Qed.
(** Near half circles. *)
Lemma radius_half X pi c m l c' m' ws a0 a1 y r p q : line_words (g_f X) l ws -> reached (g_f X) pi c m -> g_line (g_f X) pi c m l = Ok (c', m') -> made_motion c' m' -> is_arc_type (sm_type m') ->
  arc_axes (s_plane (g_st c')) = (a0, a1) -> (forall i, (i < 3)%nat -> ~ has_letter ws (fst (offset_letter i))) -> has_value ws cR y -> float64 y r -> sensible r ->
  at64 X (s_cur (g_st c)) p -> at64 X (s_cur (g_st c')) q -> Rabs (p a0) <= 1000000 -> Rabs (p a1) <= 1000000 ->
  let R := mm (s_unit (g_st c')) r in let dd := dist2 (p a0) (p a1) (q a0) (q a1) in
  Rabs R <= 400000 -> / 1000000 <= dd -> dd <= 4 * sq R ->
  sm_arc0 m' = a0 /\ sm_arc1 m' = a1 /\ (sm_center0 m' = S754_nan /\ sm_center1 m' = S754_nan \/
  exists c0 c1 rr e0 e1, float64 (sm_center0 m') c0 /\ float64 (sm_center1 m') c1 /\ float64 (sm_radius m') rr /\
    centre_of (is_cw (sm_type m')) R (p a0) (p a1) (q a0) (q a1) e0 e1 /\
    Rabs (c0 - e0) <= / 1000000000 + Rabs R / 20000000 /\ Rabs (c1 - e1) <= / 1000000000 + Rabs R / 20000000 /\ Rabs (rr - Rabs R) <= / 1000000000).
Proof.
  intros LW RE H MM AT EA NO HV Fy Sy AP AQ B0 B1 R dd BR BD BS. assert (SP : 0 <= sq R) by (unfold sq; apply sq_nonneg). pose proof (Rabs_pos R) as RP.
  assert (RR : Rabs R * Rabs R = sq R). { unfold sq. rewrite <- Rabs_mult. apply Rabs_pos_eq, sq_nonneg. }
  destruct (radius_gen X (9/100000000) pi c m l c' m' ws a0 a1 y r p q LW RE H MM AT EA NO HV Fy Sy AP AQ B0 B1 BR BD) as (P0 & P1 & C).
  - exact BS.
  - lra.
  - fold R dd. intros h H0 W. set (S := 4 * sq R - dd) in *. pose proof (sqrt_pos S) as H1. assert (HS1 : sqrt S * sqrt S = S) by (apply sqrt_sqrt; unfold S; lra).
    rewrite <- (Rabs_pos_eq (9 / 100000000 * Rabs R)) by lra. apply Rsqr_le_abs_0. unfold Rsqr.
    assert (Z : (h - sqrt S) * (h - sqrt S) <= Rabs (h * h - S)).
    { replace (h * h - S) with ((h - sqrt S) * (h + sqrt S)) by (rewrite <- HS1 at 3; ring). rewrite Rabs_mult, (Rabs_pos_eq (h + sqrt S)) by lra.
      rewrite <- (Rabs_pos_eq ((h - sqrt S) * (h - sqrt S))) by apply sq_nonneg. rewrite Rabs_mult. apply Rmult_le_compat_l; [apply Rabs_pos|]. apply Rabs_le. lra. }
    lra.
  - split; [exact P0|]. split; [exact P1|]. destruct C as [(_ & C)|(c0 & c1 & rr & e0 & e1 & C1 & C2 & C3 & C4 & C5 & C6 & C7)]; [left; exact C|right].
    exists c0, c1, rr, e0, e1. fold R in C4, C5, C6, C7. split; [exact C1|]. split; [exact C2|]. split; [exact C3|]. split; [exact C4|]. split; [lra|]. split; [lra|exact C7].
Qed.
