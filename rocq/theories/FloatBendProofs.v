(** Arcs in the text of a program, read in double precision: the parser's part. *)
Require Import List Arith NArith ZArith Bool Reals Ratan Machin Lra Lia ZifyBool ZifyNat ZifyN.
From Coq Require Import Floats.SpecFloat.
From Flocq Require Import Zaux Raux Defs Generic_fmt FLT Float_prop Round_NE Ulp Round_pred Relative Plus_error BinarySingleNaN.
From Verif Require Import Base BaseProofs Num NumR NumSF MotionModel CtrlModel CtrlSpec ProfileSpec GeomSpec RunSpec GcodeModel GcodeSpec GcodeRSpec GText GStageProofs GMeaningProofs GLineProofs.
From Verif Require Import FloatSpec FloatRunSpec FloatProgSpec FloatArcSpec FloatProofs FloatClockProofs FloatTrackProofs FloatErrProofs FloatPlanProofs FloatJobProofs FloatLimitProofs FloatReadProofs FloatArcProofs FloatBendSpec.
Import ListNotations.
Open Scope R_scope.

(** *** What the parser computes for an arc, in any arithmetic. *)
Section Any.
Context {D : Type} (K : num D) (pi : D).
Local Notation zero := (nofZ K 0).
(** The turn from the direction [sa] to the direction [ea]. *)
Definition turned (t : motionType) (sa ea : D) : D :=
  let da := nsub K ea sa in let twopi := nmul K (nofZ K 2) pi in
  match t with feedHelicalCW => if nleb K zero da then nsub K da twopi else da | _ => if nleb K da zero then nadd K da twopi else da end.
(** The direction of [x] from the centre. *)
Definition direction (m : smotion D) (x : list D) : D :=
  natan2 K (nsub K (coord_at K x (sm_arc1 m)) (sm_center1 m)) (nsub K (coord_at K x (sm_arc0 m)) (sm_center0 m)).
Lemma arc_calc b (s s' : @gstate D) m m' : is_helical (sm_type m) = true -> calcMotion K pi b s m = Ok (s', m') ->
  (sm_arc0 m', sm_arc1 m') = plane_axes (s_plane s) /\
  sm_startAngle m' = direction m' (s_cur s) /\
  sm_deltaAngle m' = turned (sm_type m) (direction m' (s_cur s)) (direction m' (map (next_axis K s) axes)) /\
  sm_length m' = nsqrt K (fold_left (fun acc i => if is_arc (sm_arc0 m') (sm_arc1 m') i then acc else nadd K acc (sqd K (nthZ K (sm_delta m') i))) axes
                           (sqd K (nmul K (sm_radius m') (nabs K (sm_deltaAngle m'))))) /\
  sm_vFeed m' = match s_feed s with G93 => ndiv K (nmul K (sm_length m') (letter K s LtF)) (nofZ K 60) | G94 => ndiv K (in_mm K s (letter K s LtF)) (nofZ K 60) end.
Proof.
  intros HH H. unfold calcMotion, calcNextPosition in H. cbn beta iota zeta in H.
  set (nx := map (next_axis K s) axes) in H. set (m1 := setArcAxisFromPlane _ _) in H. set (S := st_next _ s) in H.
  assert (E1 : (sm_arc0 m1, sm_arc1 m1) = plane_axes (s_plane s) /\ sm_type m1 = sm_type m).
  { unfold m1, setArcAxisFromPlane. cbn [sm_type]. rewrite HH. change (s_plane (st_next nx s)) with (s_plane s). destruct (plane_axes (s_plane s)). split; reflexivity. }
  assert (ES : s_feed S = s_feed s /\ letter K S LtF = letter K s LtF /\ in_mm K S (letter K s LtF) = in_mm K s (letter K s LtF) /\ s_cur S = s_cur s /\ s_next S = nx) by (repeat split).
  destruct (calcArcCenterAndRadius K b S m1) as [m2|] eqn:E; [|discriminate]. cbn [rbind] in H. injection H as _ <-.
  assert (E2 : sm_arc0 m2 = sm_arc0 m1 /\ sm_arc1 m2 = sm_arc1 m1 /\ sm_type m2 = sm_type m1).
  { unfold calcArcCenterAndRadius in E. destruct (hasOffset b); [|destruct (hasRadius b)].
    - destruct (_ && _)%bool; [|discriminate]. injection E as <-. repeat split.
    - destruct (_ && _)%bool; [|discriminate]. cbv zeta in E. destruct (nltb K _ zero); injection E as <-; repeat split.
    - injection E as <-. auto. }
  clearbody m1 S. clear E. destruct E1 as (E1 & E1'). destruct E2 as (E2 & E3 & E4). destruct ES as (F1 & F2 & F3 & F4 & F5).
  set (m3 := calcArcAngles K pi S m2).
  assert (A3 : sm_arc0 m3 = sm_arc0 m2 /\ sm_arc1 m3 = sm_arc1 m2 /\ sm_type m3 = sm_type m2 /\ sm_center0 m3 = sm_center0 m2 /\ sm_center1 m3 = sm_center1 m2 /\
    sm_startAngle m3 = direction m2 (s_cur S) /\ sm_deltaAngle m3 = turned (sm_type m2) (direction m2 (s_cur S)) (direction m2 (s_next S))).
  { unfold m3, calcArcAngles. rewrite E4, E1', HH. cbv zeta. repeat split. }
  clearbody m3. set (m4 := calcTrajectoryLength K m3).
  assert (A4 : sm_arc0 m4 = sm_arc0 m3 /\ sm_arc1 m4 = sm_arc1 m3 /\ sm_type m4 = sm_type m3 /\ sm_center0 m4 = sm_center0 m3 /\ sm_center1 m4 = sm_center1 m3 /\
    sm_startAngle m4 = sm_startAngle m3 /\ sm_deltaAngle m4 = sm_deltaAngle m3 /\ sm_radius m4 = sm_radius m3 /\ sm_delta m4 = sm_delta m3 /\
    sm_length m4 = nsqrt K (fold_left (fun acc i => if is_arc (sm_arc0 m3) (sm_arc1 m3) i then acc else nadd K acc (sqd K (nthZ K (sm_delta m3) i))) axes (sqd K (nmul K (sm_radius m3) (nabs K (sm_deltaAngle m3)))))) by (repeat split).
  clearbody m4.
  assert (G : let m5 := calcPeripherals K S (calcSpeedAndOrDuration K S m4) in
    sm_arc0 m5 = sm_arc0 m4 /\ sm_arc1 m5 = sm_arc1 m4 /\ sm_type m5 = sm_type m4 /\ sm_center0 m5 = sm_center0 m4 /\ sm_center1 m5 = sm_center1 m4 /\
    sm_startAngle m5 = sm_startAngle m4 /\ sm_deltaAngle m5 = sm_deltaAngle m4 /\ sm_radius m5 = sm_radius m4 /\ sm_delta m5 = sm_delta m4 /\ sm_length m5 = sm_length m4 /\
    sm_vFeed m5 = sm_vFeed (calcSpeedAndOrDuration K S m4)).
  { cbv zeta. unfold calcPeripherals. destruct (s_spindle S); unfold calcSpeedAndOrDuration; (destruct (match sm_type m4 with traverse => _ | _ => _ end)); repeat split. }
  cbv zeta in G. set (m5 := calcPeripherals K S _) in *. clearbody m5.
  destruct A3 as (A31 & A32 & A33 & A34 & A35 & A36 & A37). destruct A4 as (A41 & A42 & A43 & A44 & A45 & A46 & A47 & A48 & A49 & A4a).
  destruct G as (G1 & G2 & G3 & G4 & G5 & G6 & G7 & G8 & G9 & Ga & Gb).
  assert (ED : forall x, direction m5 x = direction m2 x). { intro x. unfold direction. rewrite G1, G2, G4, G5, A41, A42, A44, A45, A31, A32, A34, A35. reflexivity. }
  split; [congruence|]. rewrite !ED. fold nx. rewrite <- F4, <- F5. split; [congruence|]. split; [rewrite G7, A47, A37, E4, E1'; reflexivity|]. split.
  - rewrite Ga, A4a, G1, G2, G7, G8, G9, A41, A42, A47, A48, A49. reflexivity.
  - rewrite Gb, Ga. unfold calcSpeedAndOrDuration. rewrite A43, A33, E4, E1'. rewrite F1, F2, F3. destruct (sm_type m); try discriminate HH; cbn [sm_vFeed]; destruct (s_feed s); reflexivity.
Qed.
Lemma read_arc c m l c' m' : sized (g_st c) -> g_line K pi c m l = Ok (c', m') -> made_motion c' m' -> is_helical (sm_type m') = true ->
  (sm_arc0 m', sm_arc1 m') = plane_axes (s_plane (g_st c')) /\ sm_start m' = s_cur (g_st c) /\
  sm_delta m' = map (fun i => nsub K (coord_at K (s_cur (g_st c')) i) (coord_at K (s_cur (g_st c)) i)) [0; 1; 2]%nat /\
  sm_startAngle m' = direction m' (s_cur (g_st c)) /\
  sm_deltaAngle m' = turned (sm_type m') (direction m' (s_cur (g_st c))) (direction m' (s_cur (g_st c'))) /\
  sm_length m' = nsqrt K (fold_left (fun acc i => if is_arc (sm_arc0 m') (sm_arc1 m') i then acc else nadd K acc (sqd K (nthZ K (sm_delta m') i))) axes
                           (sqd K (nmul K (sm_radius m') (nabs K (sm_deltaAngle m'))))).
Proof.
  intros SZ H MM HH. destruct (line_parse _ _ _ _ _ _ _ H) as (b & E & _). assert (LW : line_words K l (b_words b)) by (exists b; auto).
  destruct (line_motion K pi c m l c' m' (b_words b) LW SZ H) as [(A & _)|(_ & CO & (sP & b' & t & KO) & _)]; [contradiction|].
  pose proof (k_calc _ _ _ _ _ _ _ _ _ _ KO) as KC.
  destruct (calcMotion_fields K pi _ _ _ _ _ KC) as (T & _). cbn [sm_type sm_with_type] in T.
  destruct (join_lemma K pi c m l c' m' SZ H) as [(N & _)|(_ & J1 & J2)]; [contradiction|].
  assert (HT : is_helical (sm_type (sm_with_type t (sm_with_type mt_none m))) = true) by (cbn [sm_type sm_with_type]; rewrite <- T; exact HH).
  destruct (arc_calc _ _ _ _ _ HT KC) as (A1 & A2 & A3 & A4 & _).
  rewrite (k_plane _ _ _ _ _ _ _ _ _ _ KO) in A1. split; [exact A1|]. split; [exact J1|]. split; [exact J2|].
  assert (EC : s_cur sP = s_cur (g_st c)) by apply (k_cur _ _ _ _ _ _ _ _ _ _ KO).
  assert (EN : s_cur (g_st c') = map (next_axis K sP) axes) by apply (k_cur' _ _ _ _ _ _ _ _ _ _ KO).
  rewrite EC in A2, A3. cbn [sm_type sm_with_type] in A3. rewrite <- T in A3. rewrite EN. auto.
Qed.
Lemma arc_circle b (s s' : @gstate D) m m' : is_helical (sm_type m) = true -> hasOffset b = true -> calcMotion K pi b s m = Ok (s', m') ->
  sm_center0 m' = center_axis K s (sm_arc0 m') /\ sm_center1 m' = center_axis K s (sm_arc1 m') /\
  sm_radius m' = nsqrt K (nadd K (nadd K zero (sqd K (nsub K (nthZ K (s_cur s) (sm_arc0 m')) (sm_center0 m')))) (sqd K (nsub K (nthZ K (s_cur s) (sm_arc1 m')) (sm_center1 m')))).
Proof.
  intros HH HO H. unfold calcMotion, calcNextPosition in H. cbn beta iota zeta in H.
  set (m1 := setArcAxisFromPlane _ _) in H. set (S := st_next _ s) in H.
  assert (ES : forall a, center_axis K S a = center_axis K s a) by reflexivity. assert (EC : s_cur S = s_cur s) by reflexivity.
  destruct (calcArcCenterAndRadius K b S m1) as [m2|] eqn:E; [|discriminate]. cbn [rbind] in H. injection H as _ <-. clearbody m1 S.
  assert (E2 : sm_center0 m2 = center_axis K s (sm_arc0 m2) /\ sm_center1 m2 = center_axis K s (sm_arc1 m2) /\
    sm_radius m2 = nsqrt K (nadd K (nadd K zero (sqd K (nsub K (nthZ K (s_cur s) (sm_arc0 m2)) (sm_center0 m2)))) (sqd K (nsub K (nthZ K (s_cur s) (sm_arc1 m2)) (sm_center1 m2))))).
  { unfold calcArcCenterAndRadius in E. rewrite HO in E. destruct (_ && _)%bool; [|discriminate]. injection E as <-. cbn [sm_with_arc sm_center0 sm_center1 sm_radius sm_arc0 sm_arc1]. rewrite !ES, EC. auto. }
  clear E. set (m3 := calcArcAngles K pi S m2).
  assert (A3 : sm_arc0 m3 = sm_arc0 m2 /\ sm_arc1 m3 = sm_arc1 m2 /\ sm_center0 m3 = sm_center0 m2 /\ sm_center1 m3 = sm_center1 m2 /\ sm_radius m3 = sm_radius m2).
  { unfold m3, calcArcAngles. destruct (if is_helical (sm_type m2) then _ else _) as [sa da]. repeat split. }
  clearbody m3. set (m4 := calcTrajectoryLength K m3).
  assert (A4 : sm_arc0 m4 = sm_arc0 m3 /\ sm_arc1 m4 = sm_arc1 m3 /\ sm_center0 m4 = sm_center0 m3 /\ sm_center1 m4 = sm_center1 m3 /\ sm_radius m4 = sm_radius m3) by (repeat split).
  clearbody m4.
  assert (G : let m5 := calcPeripherals K S (calcSpeedAndOrDuration K S m4) in
    sm_arc0 m5 = sm_arc0 m4 /\ sm_arc1 m5 = sm_arc1 m4 /\ sm_center0 m5 = sm_center0 m4 /\ sm_center1 m5 = sm_center1 m4 /\ sm_radius m5 = sm_radius m4).
  { cbv zeta. unfold calcPeripherals. destruct (s_spindle S); unfold calcSpeedAndOrDuration; (destruct (match sm_type m4 with traverse => _ | _ => _ end)); repeat split. }
  cbv zeta in G. set (m5 := calcPeripherals K S _) in *. clearbody m5.
  destruct A3 as (A31 & A32 & A34 & A35 & A36). destruct A4 as (A41 & A42 & A44 & A45 & A46). destruct G as (G1 & G2 & G4 & G5 & G6). destruct E2 as (E1 & E2 & E3).
  rewrite G1, G2, G4, G5, G6, A41, A42, A44, A45, A46, A31, A32, A34, A35, A36. auto.
Qed.
End Any.
(** *** Pi. *)
Lemma term k (n : nat) : (0 < k)%Z -> Ratan_seq (/ IZR k) n = / IZR (k ^ Z.of_nat (2 * n + 1) * Z.of_nat (2 * n + 1)).
Proof.
  intro K. assert (0 < IZR k) by (apply IZR_lt; lia). assert (0 < k ^ Z.of_nat (2 * n + 1))%Z by (apply Z.pow_pos_nonneg; lia). unfold Ratan_seq.
  rewrite mult_IZR, <- INR_IZR_INZ, pow_inv, pow_IZR. unfold Rdiv. rewrite Rinv_mult. reflexivity.
Qed.
Lemma pi_near : Rabs (3141592653589793 / 1000000000000000 - PI) <= / 2000000000000000.
Proof.
  assert (T : forall n, tg_alt PI_2_3_7_tg n = (-1) ^ n * (2 * / IZR (3 ^ Z.of_nat (2 * n + 1) * Z.of_nat (2 * n + 1)) + / IZR (7 ^ Z.of_nat (2 * n + 1) * Z.of_nat (2 * n + 1)))).
  { intro n. unfold tg_alt, PI_2_3_7_tg. now rewrite !term by lia. }
  pose proof (PI_2_3_7_ineq 8) as (A & B).
  assert (E : forall f g n, (forall i, f i = g i) -> sum_f_R0 f n = sum_f_R0 g n) by (intros f g n H; apply sum_eq; auto).
  rewrite (E _ _ _ T) in A. rewrite (E _ _ _ T) in B. 
  cbn [Nat.mul Nat.add] in A, B.
  assert (P1 : forall n, (-1) ^ (2 * n) = 1) by (intro n; rewrite pow_Rsqr; unfold Rsqr; replace (-1 * -1) with 1 by ring; apply pow1).
  unfold sum_f_R0 in A, B.
  repeat match goal with H : context [Z.of_nat ?n] |- _ => let v := eval vm_compute in (Z.of_nat n) in change (Z.of_nat n) with v in H end.
  repeat match goal with H : context [IZR (?a ^ ?b * ?b)] |- _ => let v := eval vm_compute in (a ^ b * b)%Z in change (a ^ b * b)%Z with v in H end.
  repeat match goal with H : context [(-1) ^ ?n] |- _ => let v := eval vm_compute in (Z.even (Z.of_nat n)) in
     match v with true => replace ((-1) ^ n) with 1 in H by (cbn; ring) | false => replace ((-1) ^ n) with (-1) in H by (cbn; ring) end end.
  apply Rabs_le. lra.
Qed.

Lemma PI_b : 3141592653 / 1000000000 < PI < 3141592654 / 1000000000.
Proof. pose proof pi_near as H. apply Rabs_le_inv in H. lra. Qed.
Lemma pi_f_ok : pi_ok pi_f.
Proof.
  exists (7074237752028440 / 2251799813685248). split.
  - split; [reflexivity|]. unfold pi_f, sf_val. rewrite <- bpow_val. change (bpow radix2 (-51)) with (/ 2251799813685248). f_equal. lra.
  - pose proof pi_near as H. apply Rabs_le_inv in H. apply Rabs_le. lra.
Qed.

(** *** Angles. *)
Lemma sin_Z x k : sin (x + IZR k * (2 * PI)) = sin x.
Proof.
  destruct (Z_le_dec 0 k) as [H|H].
  - rewrite <- (Z2Nat.id k H), <- INR_IZR_INZ. replace (x + INR (Z.to_nat k) * (2 * PI)) with (x + 2 * INR (Z.to_nat k) * PI) by ring. apply sin_period.
  - rewrite <- (sin_period (x + IZR k * (2 * PI)) (Z.to_nat (- k))). f_equal. rewrite INR_IZR_INZ, Z2Nat.id, opp_IZR by lia. ring.
Qed.
Lemma cos_Z x k : cos (x + IZR k * (2 * PI)) = cos x.
Proof.
  destruct (Z_le_dec 0 k) as [H|H].
  - rewrite <- (Z2Nat.id k H), <- INR_IZR_INZ. replace (x + INR (Z.to_nat k) * (2 * PI)) with (x + 2 * INR (Z.to_nat k) * PI) by ring. apply cos_period.
  - rewrite <- (cos_period (x + IZR k * (2 * PI)) (Z.to_nat (- k))). f_equal. rewrite INR_IZR_INZ, Z2Nat.id, opp_IZR by lia. ring.
Qed.
Lemma jordan y : 0 <= y <= 16/10 -> y <= 2 * sin y.
Proof.
  intros (Y0 & Y1). pose proof PI_b. destruct (SIN y Y0 ltac:(lra)) as (S & _). eapply Rle_trans; [|apply Rmult_le_compat_l; [lra|exact S]].
  unfold sin_lb, sin_approx, sin_term. cbn [sum_f_R0 Nat.mul Nat.add pow fact INR]. 
  replace (_ + _) with (y * (1 - y * y / 6 + (y * y) * (y * y) / 120 - (y * y) * (y * y) * (y * y) / 5040)) by (cbn; field).
  set (z := y * y). assert (Z0 : 0 <= z <= 256/100). { unfold z. split; [apply sq_nonneg|]. apply Rle_trans with (16/10 * (16/10)); [apply Rmult_le_compat; lra|lra]. }
  assert (Z1 : 0 <= z * z / 120 - z * z * z / 5040). { replace (z * z / 120 - z * z * z / 5040) with (z * z * (1/120 - z/5040)) by field. apply Rmult_le_pos; [apply sq_nonneg|lra]. }
  replace (2 * (y * (1 - z / 6 + z * z / 120 - z * z * z / 5040))) with (y * (2 * (1 - z / 6 + (z * z / 120 - z * z * z / 5040)))) by ring.
  rewrite <- (Rmult_1_r y) at 1. apply Rmult_le_compat_l; lra.
Qed.
Lemma full_turns x e : 0 < cos x -> Rabs (sin x) <= e -> exists k, Rabs (x - IZR k * (2 * PI)) <= 2 * e.
Proof.
  intros C S. pose proof PI_b as PB. pose proof (archimed (x / (2 * PI) - / 2)) as (A1 & A2). set (k := up (x / (2 * PI) - / 2)) in *. exists k.
  set (y := x - IZR k * (2 * PI)). assert (EX : x = y + IZR k * (2 * PI)) by (unfold y; ring).
  assert (YB : - PI <= y <= PI).
  { assert (E : x = x / (2 * PI) * (2 * PI)) by (field; lra). unfold y. rewrite E. 
    assert (B : - / 2 <= x / (2 * PI) - IZR k <= / 2) by lra. replace (x / (2 * PI) * (2 * PI) - IZR k * (2 * PI)) with ((x / (2 * PI) - IZR k) * (2 * PI)) by ring.
    split; [apply Rle_trans with (- / 2 * (2 * PI)); [lra|]|apply Rle_trans with (/ 2 * (2 * PI)); [|lra]]; apply Rmult_le_compat_r; lra. }
  rewrite EX, cos_Z in C. rewrite EX, sin_Z in S.
  assert (W : forall z, 0 <= z <= PI -> 0 < cos z -> z <= 2 * sin z).
  { intros z Z CZ. apply jordan. split; [lra|]. apply Rnot_lt_le. intro G. pose proof (cos_le_0 z ltac:(lra) ltac:(lra)). lra. }
  destruct (Rle_or_lt 0 y) as [Y|Y].
  - rewrite Rabs_pos_eq by lra. pose proof (W y ltac:(lra) C). pose proof (Rle_abs (sin y)). lra.
  - rewrite <- Rabs_Ropp, Rabs_pos_eq by lra. pose proof (W (- y) ltac:(lra) ltac:(rewrite cos_neg; exact C)) as Q. rewrite sin_neg in Q. pose proof (Rle_abs (- sin y)). rewrite Rabs_Ropp in *. lra.
Qed.
Lemma angle_close h t h' t' e : 0 < h -> 0 <= h' -> 0 <= e <= / 100 -> Rabs (h' * cos t' - h * cos t) <= e * h -> Rabs (h' * sin t' - h * sin t) <= e * h ->
  exists k, Rabs (t' - t - IZR k * (2 * PI)) <= 5 * e.
Proof.
  intros H H' E U V. set (du := h' * cos t' - h * cos t) in *. set (dv := h' * sin t' - h * sin t) in *.
  pose proof (sin2_cos2 t) as SC. unfold Rsqr in SC.
  assert (C1 : h' * cos (t' - t) = h + (du * cos t + dv * sin t)).
  { rewrite cos_minus. unfold du, dv. transitivity (h' * cos t' * cos t + h' * sin t' * sin t - h * (sin t * sin t + cos t * cos t) + h); [rewrite SC; ring|ring]. }
  assert (S1 : h' * sin (t' - t) = dv * cos t - du * sin t) by (rewrite sin_minus; unfold du, dv; ring).
  assert (B : forall a b, Rabs b <= 1 -> Rabs a <= e * h -> Rabs (a * b) <= e * h).
  { intros a b Hb Ha. rewrite Rabs_mult, <- (Rmult_1_r (e * h)). apply Rmult_le_compat; auto using Rabs_pos. }
  assert (CB : Rabs (cos t) <= 1) by (apply Rabs_le, COS_bound). assert (SB : Rabs (sin t) <= 1) by (apply Rabs_le, SIN_bound).
  pose proof (B _ _ CB U) as B1. pose proof (B _ _ SB V) as B2. pose proof (B _ _ CB V) as B3. pose proof (B _ _ SB U) as B4.
  apply Rabs_le_inv in B1, B2, B3, B4.
  assert (EH : e * h <= / 100 * h) by (apply Rmult_le_compat_r; lra).
  assert (CC : 98/100 * h <= h' * cos (t' - t)) by lra.
  assert (CP : 0 < cos (t' - t)). { apply Rnot_le_lt. intro N. assert (h' * cos (t' - t) <= h' * 0) by (apply Rmult_le_compat_l; lra). lra. }
  assert (HL : 98/100 * h <= h'). { pose proof (COS_bound (t' - t)). assert (h' * cos (t' - t) <= h' * 1) by (apply Rmult_le_compat_l; lra). lra. }
  assert (SS : Rabs (sin (t' - t)) <= 25/10 * e).
  { apply (Rmult_le_reg_l h'); [lra|]. rewrite <- (Rabs_pos_eq h') at 1 by lra. rewrite <- Rabs_mult, S1. apply Rle_trans with (2 * (e * h)); [apply Rabs_le; lra|].
    replace (h' * (25 / 10 * e)) with (25/10 * e * h') by ring. apply Rle_trans with (25/10 * e * (98/100 * h)); [assert (0 <= e * h) by (apply Rmult_le_pos; lra); lra|apply Rmult_le_compat_l; lra]. }
  destruct (full_turns _ _ CP SS) as (k & Hk). exists k. lra.
Qed.

(** *** The directions and the turn, in double precision. *)
Lemma rnd_add x y r s : fin64 x r -> fin64 y s -> Rabs (r - s) <= 1000000000000 -> fin64 (SFsub 53 1024 x y) (rnd53 (r - s)).
Proof. intros F G B. exact (fin_sub _ _ prec53 max53 _ _ _ _ F G (small53 _ B)). Qed.
Lemma direction_near X m x p A t h : atan_ok X -> sm_arc0 m = ar_0 A -> sm_arc1 m = ar_1 A -> (ar_0 A < 3)%nat -> (ar_1 A < 3)%nat ->
  float64 (sm_center0 m) (ar_c0 A) -> float64 (sm_center1 m) (ar_c1 A) -> at64 X x p -> seen A p t h -> / 2000 <= h <= 1000000 ->
  exists a k, fin64 (direction (g_f X) m x) a /\ Rabs (a - t - IZR k * (2 * PI)) <= 18 * E53 /\ Rabs a <= PI + 8 * E53.
Proof.
  intros AT E0 E1 L0 L1 F0 F1 AP (S0 & S1) HB. pose proof (AP _ L0) as P0. pose proof (AP _ L1) as P1. rewrite <- E0 in P0. rewrite <- E1 in P1.
  rewrite E0 in P0 at 2. rewrite E1 in P1 at 2. apply fin_float64 in F0, F1, P0, P1.
  assert (CB : Rabs (cos t) <= 1) by (apply Rabs_le, COS_bound). assert (SB : Rabs (sin t) <= 1) by (apply Rabs_le, SIN_bound).
  assert (U : p (ar_0 A) - ar_c0 A = h * cos t) by lra. assert (V : p (ar_1 A) - ar_c1 A = h * sin t) by lra.
  assert (B : forall z, Rabs z <= 1 -> Rabs (h * z) <= h). { intros z Hz. rewrite Rabs_mult, (Rabs_pos_eq h) by lra. rewrite <- (Rmult_1_r h) at 2. apply Rmult_le_compat_l; lra. }
  pose proof (B _ CB) as BU. pose proof (B _ SB) as BV.
  pose proof (rnd_add _ _ _ _ P0 F0 ltac:(rewrite U; lra)) as FU. pose proof (rnd_add _ _ _ _ P1 F1 ltac:(rewrite V; lra)) as FV. rewrite U in FU. rewrite V in FV.
  pose proof (rnd53_err (h * cos t)) as EU. pose proof (rnd53_err (h * sin t)) as EV. set (u := rnd53 (h * cos t)) in *. set (v := rnd53 (h * sin t)) in *.
  assert (EU' : Rabs (u - h * cos t) <= 2 * E53 * h) by (unfold E53, eta in *; lra). assert (EV' : Rabs (v - h * sin t) <= 2 * E53 * h) by (unfold E53, eta in *; lra).
  assert (N : 0 < u * u + v * v).
  { pose proof (sq_nonneg u) as Nu. pose proof (sq_nonneg v) as Nv. destruct (Req_dec (u * u + v * v) 0) as [Z|Z]; [|lra]. exfalso.
    assert (u = 0 /\ v = 0) as (Zu & Zv). { split; apply Rsqr_0_uniq; unfold Rsqr; lra. } rewrite Zu, Rminus_0_l, Rabs_Ropp in EU'. rewrite Zv, Rminus_0_l, Rabs_Ropp in EV'.
    assert (C2 : h * cos t * (h * cos t) <= / 1000 * h * (/ 1000 * h)). { replace (h * cos t * (h * cos t)) with (Rabs (h * cos t) * Rabs (h * cos t)) by (rewrite <- Rabs_mult; apply Rabs_pos_eq, sq_nonneg). apply Rmult_le_compat; auto using Rabs_pos; unfold E53 in *; lra. }
    assert (S2 : h * sin t * (h * sin t) <= / 1000 * h * (/ 1000 * h)). { replace (h * sin t * (h * sin t)) with (Rabs (h * sin t) * Rabs (h * sin t)) by (rewrite <- Rabs_mult; apply Rabs_pos_eq, sq_nonneg). apply Rmult_le_compat; auto using Rabs_pos; unfold E53 in *; lra. }
    pose proof (sin2_cos2 t) as SC. unfold Rsqr in SC. assert (HH : 0 < h * h) by (apply Rmult_lt_0_compat; lra).
    assert (h * cos t * (h * cos t) + h * sin t * (h * sin t) = h * h) by (transitivity (h * h * (sin t * sin t + cos t * cos t)); [ring|rewrite SC; ring]). lra. }
  destruct (AT _ _ v u (float64_fin _ _ FV) (float64_fin _ _ FU) N) as (a & t' & FA & EA & TB & CU & CV). set (h' := sqrt (u * u + v * v)) in *.
  pose proof (sqrt_pos (u * u + v * v)) as H'. fold h' in H'.
  destruct (angle_close h t h' t' (2 * E53) ltac:(lra) H' ltac:(unfold E53; lra)) as (k & K). { rewrite <- CU. exact EU'. } { rewrite <- CV. exact EV'. }
  exists a, k. split; [apply fin_float64; exact FA|]. apply Rabs_le_inv in EA, K, TB. unfold E53 in *. split; apply Rabs_le; lra.
Qed.
Lemma turned_near X pi pr ty sa ea a b a0 da k l : fin64 pi pr -> Rabs (pr - PI) <= 8 * E53 -> fin64 sa a -> fin64 ea b -> Rabs a <= PI + 8 * E53 -> Rabs b <= PI + 8 * E53 ->
  Rabs (a - a0 - IZR k * (2 * PI)) <= 18 * E53 -> Rabs (b - (a0 + da) - IZR l * (2 * PI)) <= 18 * E53 ->
  ty = feedHelicalCW /\ da < 0 \/ ty = feedHelicalCCW /\ 0 < da -> (/ 1000000 <= Rabs da <= 2 * PI - / 1000000) \/ (Rabs da = 2 * PI /\ ea = sa) ->
  exists d, fin64 (turned (g_f X) pi ty sa ea) d /\ Rabs (d - da) <= 128 * E53.
Proof.
  intros FP PE FA FB AB BB KA KB TY CL. pose proof PI_b as PB. apply Rabs_le_inv in AB, BB, PE. unfold E53 in *.
  assert (FZ : fin64 (nofZ (g_f X) 0) 0) by apply fin_zero.
  assert (F2 : fin64 (nofZ (g_f X) 2) 2) by apply (fin_float64 _ _ (float64_lit X 2 ltac:(lia))).
  assert (FT : fin64 (nmul (g_f X) (nofZ (g_f X) 2) pi) (rnd53 (2 * pr))). { refine (fin_mul _ _ prec53 max53 _ _ _ _ F2 FP _). apply small53. apply Rabs_le. lra. }
  pose proof (rnd53_err (2 * pr)) as ET. rewrite (Rabs_pos_eq (2 * pr)) in ET by lra. set (tp := rnd53 (2 * pr)) in *. unfold eta in ET. apply Rabs_le_inv in ET.
  assert (FD : fin64 (nsub (g_f X) ea sa) (rnd53 (b - a))) by (apply rnd_add; auto; apply Rabs_le; lra).
  assert (RB : Rabs (b - a) <= 65/10) by (apply Rabs_le; lra).
  pose proof (rnd53_err (b - a)) as ED. set (d1 := rnd53 (b - a)) in *. unfold eta in ED.
  assert (ED' : Rabs (d1 - (b - a)) <= 8 * / 9007199254740992) by lra. clear ED. apply Rabs_le_inv in ED'.
  assert (DB : -7 <= d1 <= 7) by (apply Rabs_le_inv in RB; lra).
  assert (RND : forall z, Rabs z <= 14 -> Rabs (rnd53 z - z) <= 15 * / 9007199254740992). { intros z Hz. pose proof (rnd53_err z) as E. unfold eta in E. lra. }
  assert (FS : fin64 (nsub (g_f X) (nsub (g_f X) ea sa) (nmul (g_f X) (nofZ (g_f X) 2) pi)) (rnd53 (d1 - tp))) by (apply rnd_add; auto; apply Rabs_le; lra).
  assert (FA' : fin64 (nadd (g_f X) (nsub (g_f X) ea sa) (nmul (g_f X) (nofZ (g_f X) 2) pi)) (rnd53 (d1 + tp))). { refine (fin_add _ _ prec53 max53 _ _ _ _ FD FT _). apply small53. apply Rabs_le. lra. }
  pose proof (RND (d1 - tp) ltac:(apply Rabs_le; lra)) as E1. pose proof (RND (d1 + tp) ltac:(apply Rabs_le; lra)) as E2. apply Rabs_le_inv in E1, E2.
  apply Rabs_le_inv in KA, KB.
  assert (Z : forall n : Z, -2 < IZR n < 2 -> n = (-1)%Z \/ n = 0%Z \/ n = 1%Z). { intros n (H1 & H2). apply lt_IZR in H1, H2. lia. }
  assert (NE : IZR (l - k) = IZR l - IZR k) by apply minus_IZR. set (n := (l - k)%Z) in *.
  assert (DN : - 44 * / 9007199254740992 <= d1 - da - IZR n * (2 * PI) <= 44 * / 9007199254740992) by (rewrite NE; lra).
  assert (NB : -2 < IZR n < 2 \/ Rabs da = 2 * PI).
  { destruct CL as [CL|(CL & _)]; [left|auto]. destruct CL as (_ & CL). apply Rabs_le_inv in CL.
    split; apply Rnot_le_lt; intro C; (assert (C' : IZR n * (2 * PI) <= -2 * (2 * PI) \/ 2 * (2 * PI) <= IZR n * (2 * PI)) by (first [left; apply Rmult_le_compat_r; lra | right; apply Rmult_le_compat_r; lra])); apply Rabs_le_inv in RB; lra. }
  unfold turned.
  destruct TY as [(-> & SG)|(-> & SG)].
  - change (nleb (g_f X) (nofZ (g_f X) 0) (nsub (g_f X) ea sa)) with (SFleb (nofZ (g_f X) 0) (nsub (g_f X) ea sa)). rewrite (fin_leb _ _ _ _ _ _ FZ FD).
    rewrite (Rabs_left da) in CL, NB by lra.
    destruct CL as [CL|(CL & EQ)].
    + assert (NN : n = 0%Z \/ n = 1%Z). { destruct NB as [NB|NB]; [|lra]. destruct (Z n NB) as [-> |[-> | ->]]; auto. exfalso. apply Rabs_le_inv in RB. lra. }
      destruct NN as [-> | ->].
      * rewrite Rle_bool_false by lra. exists d1. split; auto. apply Rabs_le. lra.
      * rewrite Rle_bool_true by lra. exists (rnd53 (d1 - tp)). split; auto. apply Rabs_le. lra.
    + assert (d1 = 0). { subst ea. assert (a = b). { destruct FA as (x1 & X1 & X2 & X3). destruct FB as (x2 & Y1 & Y2 & Y3). assert (x1 = x2) by (apply B2SF_inj; congruence). congruence. } unfold d1. subst b. rewrite Rminus_eq_0. apply rnd53_id, generic_format_0. }
      rewrite Rle_bool_true by lra. exists (rnd53 (d1 - tp)). split; auto. apply Rabs_le. lra.
  - change (nleb (g_f X) (nsub (g_f X) ea sa) (nofZ (g_f X) 0)) with (SFleb (nsub (g_f X) ea sa) (nofZ (g_f X) 0)). rewrite (fin_leb _ _ _ _ _ _ FD FZ).
    rewrite (Rabs_pos_eq da) in CL, NB by lra.
    destruct CL as [CL|(CL & EQ)].
    + assert (NN : n = 0%Z \/ n = (-1)%Z). { destruct NB as [NB|NB]; [|lra]. destruct (Z n NB) as [-> |[-> | ->]]; auto. exfalso. apply Rabs_le_inv in RB. lra. }
      destruct NN as [-> | ->].
      * rewrite Rle_bool_false by lra. exists d1. split; auto. apply Rabs_le. lra.
      * rewrite Rle_bool_true by lra. exists (rnd53 (d1 + tp)). split; auto. apply Rabs_le. lra.
    + assert (d1 = 0). { subst ea. assert (a = b). { destruct FA as (x1 & X1 & X2 & X3). destruct FB as (x2 & Y1 & Y2 & Y3). assert (x1 = x2) by (apply B2SF_inj; congruence). congruence. } unfold d1. subst b. rewrite Rminus_eq_0. apply rnd53_id, generic_format_0. }
      rewrite Rle_bool_true by lra. exists (rnd53 (d1 + tp)). split; auto. apply Rabs_le. lra.
Qed.

(** *** The length. *)
Lemma norm_lip a d a' d' : Rabs (sqrt (a * a + d * d) - sqrt (a' * a' + d' * d')) <= Rabs (a - a') + Rabs (d - d').
Proof.
  assert (T : forall a d a' d', sqrt (a * a + d * d) <= sqrt (a' * a' + d' * d') + (Rabs (a - a') + Rabs (d - d'))).
  { clear. intros a d a' d'. set (x := a - a'). set (y := d - d'). set (n := sqrt (a' * a' + d' * d')).
    assert (N0 : 0 <= n) by apply sqrt_pos. assert (NN : n * n = a' * a' + d' * d') by (apply sqrt_sqrt; pose proof (sq_nonneg a'); pose proof (sq_nonneg d'); lra).
    assert (A1 : Rabs a' <= n). { rewrite <- sqrt_Rsqr_abs. apply sqrt_le_1_alt. unfold Rsqr. pose proof (sq_nonneg d'). lra. }
    assert (D1 : Rabs d' <= n). { rewrite <- sqrt_Rsqr_abs. apply sqrt_le_1_alt. unfold Rsqr. pose proof (sq_nonneg a'). lra. }
    pose proof (Rabs_pos x) as X0. pose proof (Rabs_pos y) as Y0.
    rewrite <- (R_sqrt.sqrt_square (n + (Rabs x + Rabs y))) by lra. apply sqrt_le_1_alt.
    replace a with (a' + x) by (unfold x; ring). replace d with (d' + y) by (unfold y; ring).
    assert (B1 : a' * x <= n * Rabs x). { eapply Rle_trans; [apply Rle_abs|]. rewrite Rabs_mult. apply Rmult_le_compat_r; auto. }
    assert (B2 : d' * y <= n * Rabs y). { eapply Rle_trans; [apply Rle_abs|]. rewrite Rabs_mult. apply Rmult_le_compat_r; auto. }
    assert (X2 : x * x = Rabs x * Rabs x) by (rewrite <- Rabs_mult; symmetry; apply Rabs_pos_eq, sq_nonneg). assert (Y2 : y * y = Rabs y * Rabs y) by (rewrite <- Rabs_mult; symmetry; apply Rabs_pos_eq, sq_nonneg).
    assert (0 <= Rabs x * Rabs y) by (apply Rmult_le_pos; auto).
    replace ((a' + x) * (a' + x) + (d' + y) * (d' + y)) with (n * n + (x * x + y * y) + 2 * (a' * x + d' * y)) by (rewrite NN; ring).
    replace ((n + (Rabs x + Rabs y)) * (n + (Rabs x + Rabs y))) with (n * n + (Rabs x * Rabs x + Rabs y * Rabs y) + 2 * (n * Rabs x + n * Rabs y) + 2 * (Rabs x * Rabs y)) by ring. lra. }
  pose proof (T a d a' d') as T1. pose proof (T a' d' a d) as T2. rewrite (Rabs_minus_sym a'), (Rabs_minus_sym d') in T2. apply Rabs_le. lra.
Qed.
Lemma length2_any X t x a d : fin64 t (rnd53 (a * a)) -> generic_format radix2 (SpecFloat.fexp 53 1024) a -> fin64 x d -> / 1000000000 <= a * a + d * d <= 900000000000 ->
  exists len, fin64 (nsqrt (g_f X) (nadd (g_f X) t (sqd (g_f X) x))) len /\ Rabs (len - sqrt (a * a + d * d)) <= 10 * E53 * sqrt (a * a + d * d) /\
    forall z, (z = a \/ z = d) -> (z = 0 \/ bpow radix2 (-200) <= Rabs z) -> Rabs z <= len.
Proof.
  intros S0 GA FD SB. pose proof (sq_nonneg a) as N0. pose proof (sq_nonneg d) as N1.
  assert (SQ : forall x d, fin64 x d -> d * d <= 900000000000 -> fin64 (sqd (g_f X) x) (rnd53 (d * d))).
  { intros y e F B. refine (fin_mul _ _ prec53 max53 _ _ _ _ F F _). apply small53. rewrite Rabs_pos_eq; [lra|apply sq_nonneg]. }
  pose proof (SQ _ _ FD ltac:(lra)) as S1.
  pose proof (rnd53_err (a * a)) as E0. pose proof (rnd53_err (d * d)) as E1.
  assert (PO : forall x, 0 <= x -> 0 <= rnd53 x). { intros y Hx. apply round_ge_generic; [exact valid53|apply valid_rnd_N|apply generic_format_0|exact Hx]. }
  pose proof (PO _ N0) as P0. pose proof (PO _ N1) as P1.
  rewrite (Rabs_pos_eq (a * a)) in E0 by exact N0. rewrite (Rabs_pos_eq (d * d)) in E1 by exact N1. apply Rabs_le_inv in E0, E1. unfold eta in *.
  set (a0 := a * a) in *. set (a1 := d * d) in *.
  assert (B0 : rnd53 a0 <= 900000000001) by lra. assert (B1 : rnd53 a1 <= 900000000001) by lra.
  assert (T1 := fin_add _ _ prec53 max53 _ _ _ _ S0 S1 ltac:(apply small53; rewrite Rabs_pos_eq; lra)).
  pose proof (rnd53_err (rnd53 a0 + rnd53 a1)) as E3. rewrite (Rabs_pos_eq (rnd53 a0 + rnd53 a1)) in E3 by lra. apply Rabs_le_inv in E3. pose proof (PO (rnd53 a0 + rnd53 a1) ltac:(lra)) as P3.
  assert (M4 : forall z, z = a \/ z = d -> rnd53 (z * z) <= rnd53 (rnd53 a0 + rnd53 a1)).
  { assert (rnd53 a0 <= rnd53 (rnd53 a0 + rnd53 a1)). { replace (rnd53 a0) with (rnd53 (rnd53 a0)) at 1 by (apply rnd53_id, rnd53_format). apply rnd53_mono. lra. }
    assert (rnd53 a1 <= rnd53 (rnd53 a0 + rnd53 a1)). { replace (rnd53 a1) with (rnd53 (rnd53 a1)) at 1 by (apply rnd53_id, rnd53_format). apply rnd53_mono. lra. }
    intros z [->| ->]; fold a0 a1; lra. }
  set (b2 := rnd53 (rnd53 a0 + rnd53 a1)) in *. unfold eta in *.
  assert (T3 := fin_sqrt _ _ prec53 max53 _ _ T1 P3).
  exists (rnd53 (sqrt b2)). split; [exact T3|]. split.
  - assert (C : Rabs (b2 - (a0 + a1)) <= 5 * E53 * (a0 + a1)). { apply Rabs_le. unfold E53. lra. }
    pose proof (sqrt_close b2 (a0 + a1) (5 * E53) P3 ltac:(lra) ltac:(unfold E53; lra) C) as Q. apply Rabs_le_inv in Q.
    pose proof (rnd53_err (sqrt b2)) as E5. pose proof (sqrt_pos b2). rewrite (Rabs_pos_eq (sqrt b2)) in E5 by auto. apply Rabs_le_inv in E5.
    assert (SL : / 100000 <= sqrt (a0 + a1)). { rewrite <- (sqrt_Rsqr (/ 100000)) by lra. apply sqrt_le_1_alt. unfold Rsqr. lra. }
    apply Rabs_le. unfold E53, eta in *. lra.
  - intros z DD [-> |DB].
    + rewrite Rabs_R0. apply PO, sqrt_pos.
    + eapply Rle_trans; [apply (sqrt_square (Rabs z)); [|exact DB]|].
      * destruct DD as [->| ->]; apply generic_format_abs; [exact GA|destruct FD as (b & _ & _ & <-); apply (generic_format_B2R 53 1024)].
      * apply rnd53_mono. apply sqrt_le_1_alt. replace (Rabs z * Rabs z) with (z * z) by (rewrite <- Rabs_mult; symmetry; apply Rabs_pos_eq, sq_nonneg). apply M4. exact DD.
Qed.
Lemma fin_square X x d : fin64 x d -> d * d <= 900000000000 -> fin64 (sqd (g_f X) x) (rnd53 (d * d)) /\ generic_format radix2 (SpecFloat.fexp 53 1024) d.
Proof.
  intros F B. split; [|destruct F as (b & _ & _ & <-); apply (generic_format_B2R 53 1024)]. refine (fin_mul _ _ prec53 max53 _ _ _ _ F F _). apply small53. rewrite Rabs_pos_eq; [lra|apply sq_nonneg].
Qed.
Lemma length2_near X w x a d : fin64 w a -> fin64 x d -> / 1000000000 <= a * a + d * d <= 900000000000 ->
  exists len, fin64 (nsqrt (g_f X) (nadd (g_f X) (sqd (g_f X) w) (sqd (g_f X) x))) len /\ Rabs (len - sqrt (a * a + d * d)) <= 10 * E53 * sqrt (a * a + d * d) /\
    forall z, (z = a \/ z = d) -> (z = 0 \/ bpow radix2 (-200) <= Rabs z) -> Rabs z <= len.
Proof. intros FA FD SB. pose proof (sq_nonneg d). destruct (fin_square X w a FA ltac:(lra)) as (F & G). exact (length2_any X _ x a d F G FD SB). Qed.
Lemma tiny200 : 0 < bpow radix2 (-200) < / 1000000000000000000000000000000.
Proof. split; [apply bpow_gt_0|]. apply Rlt_trans with (bpow radix2 (-100)); [apply bpow_lt; lia|]. change (bpow radix2 (-100)) with (/ 1267650600228229401496703205376). lra. Qed.
(** [x3] and [d3] are the way of the third axis, [da] the turn and [d] its value in double precision. *)
Lemma helix_near X rr dd x3 r d da d3 : fin64 rr r -> fin64 dd d -> fin64 x3 (rnd53 d3) -> / 1000 <= r <= 400000 -> Rabs (d - da) <= 128 * E53 -> / 1000000 <= Rabs da <= 7 ->
  let L := sqrt (sq (r * da) + sq d3) in / 4096 <= L <= 499999 -> d3 = 0 \/ L <= 100000000000000000000000 * Rabs d3 ->
  exists len, fin64 (nsqrt (g_f X) (nadd (g_f X) (sqd (g_f X) (nmul (g_f X) rr (nabs (g_f X) dd))) (sqd (g_f X) x3))) len /\
    Rabs (len - L) <= 20 * E53 * L + 200 * (E53 * r) /\ r * Rabs d <= over * len /\ Rabs (rnd53 d3) <= len /\ r <= 1000000 * L.
Proof.
  intros FR FD F3 RB DE DB L LB DN. pose proof tiny200 as TY.
  assert (AD : Rabs (Rabs d - Rabs da) <= 128 * E53) by (eapply Rle_trans; [apply Rabs_triang_inv2|exact DE]). apply Rabs_le_inv in AD.
  set (w := r * Rabs d). assert (WB : r * Rabs d <= r * 8) by (apply Rmult_le_compat_l; unfold E53 in *; lra).
  assert (WL : r * / 2000000 <= r * Rabs d) by (apply Rmult_le_compat_l; unfold E53 in *; lra). fold w in WB, WL.
  assert (FW : fin64 (nmul (g_f X) rr (nabs (g_f X) dd)) (rnd53 w)). { refine (fin_mul _ _ prec53 max53 _ _ _ _ FR (fin_abs _ _ _ _ FD) _). apply small53. fold w. rewrite Rabs_pos_eq; lra. }
  assert (EW : Rabs (rnd53 w - w) <= E53 * w). { rewrite <- (Rabs_pos_eq w) at 3 by lra. apply rnd53_rel. right. rewrite Rabs_pos_eq by lra. apply Rle_trans with (bpow radix2 (-200)); [apply bpow_le; lia|lra]. }
  assert (L1 : Rabs (r * da) <= L). { rewrite <- sqrt_Rsqr_abs. apply sqrt_le_1_alt. unfold Rsqr, sq. pose proof (sq_nonneg d3). lra. }
  assert (L3 : Rabs d3 <= L). { rewrite <- sqrt_Rsqr_abs. apply sqrt_le_1_alt. unfold Rsqr, sq. pose proof (sq_nonneg (r * da)). lra. }
  rewrite Rabs_mult, (Rabs_pos_eq r) in L1 by lra.
  assert (RL : r <= 1000000 * L). { assert (r * / 1000000 <= r * Rabs da) by (apply Rmult_le_compat_l; lra). lra. }
  assert (E3 : Rabs (rnd53 d3 - d3) <= E53 * Rabs d3).
  { apply rnd53_rel. destruct DN as [E|E]; [auto|right]. apply Rle_trans with (bpow radix2 (-200)); [apply bpow_le; lia|]. lra. }
  assert (Z3 : rnd53 d3 = 0 \/ bpow radix2 (-200) <= Rabs (rnd53 d3)).
  { destruct DN as [E|E]; [left; rewrite E; apply rnd53_id, generic_format_0|right]. pose proof (Rabs_triang_inv d3 (rnd53 d3)) as T. rewrite (Rabs_minus_sym d3) in T. unfold E53 in *. lra. }
  assert (LE : L = sqrt (r * Rabs da * (r * Rabs da) + d3 * d3)).
  { unfold L, sq. f_equal. f_equal. replace (r * Rabs da * (r * Rabs da)) with (r * r * (Rabs da * Rabs da)) by ring. rewrite <- Rabs_mult, (Rabs_pos_eq (da * da)) by apply sq_nonneg. ring. }
  pose proof (norm_lip (rnd53 w) (rnd53 d3) (r * Rabs da) d3) as NL. rewrite <- LE in NL. set (Q := sqrt (rnd53 w * rnd53 w + rnd53 d3 * rnd53 d3)) in *.
  assert (WD : Rabs (rnd53 w - r * Rabs da) <= 140 * (E53 * r)).
  { replace (rnd53 w - r * Rabs da) with ((rnd53 w - w) + r * (Rabs d - Rabs da)) by (unfold w; ring). eapply Rle_trans; [apply Rabs_triang|]. rewrite Rabs_mult, (Rabs_pos_eq r) by lra.
    assert (r * Rabs (Rabs d - Rabs da) <= r * (128 * E53)) by (apply Rmult_le_compat_l; [lra|apply Rabs_le; lra]). unfold E53 in *. lra. }
  assert (QL : Rabs (Q - L) <= 140 * (E53 * r) + E53 * L). { unfold E53 in *. lra. } apply Rabs_le_inv in QL.
  assert (QB : / 10000 <= Q <= 600000) by (unfold E53 in *; lra).
  assert (QQ : Q * Q = rnd53 w * rnd53 w + rnd53 d3 * rnd53 d3). { apply sqrt_sqrt. pose proof (sq_nonneg (rnd53 w)). pose proof (sq_nonneg (rnd53 d3)). lra. }
  destruct (length2_near X _ _ _ _ FW F3) as (len & FL & LN & LD).
  { rewrite <- QQ. split; [apply Rle_trans with (/ 10000 * / 10000); [lra|apply Rmult_le_compat; lra]|apply Rle_trans with (600000 * 600000); [apply Rmult_le_compat; lra|lra]]. }
  fold Q in LN. apply Rabs_le_inv in LN. exists len. split; [exact FL|].
  apply Rabs_le_inv in EW.
  assert (W1 : Rabs (rnd53 w) <= len). { apply LD; [auto|right]. rewrite Rabs_pos_eq; unfold E53 in *; lra. } rewrite Rabs_pos_eq in W1 by (unfold E53 in *; lra).
  split; [apply Rabs_le; unfold E53 in *; lra|]. split; [|split; [apply LD; auto|exact RL]]. fold w. unfold over, E53 in *. lra.
Qed.
