(** What the words of a block mean in double precision. *)
Require Import String List Arith NArith ZArith Bool Reals Lra Lia ZifyBool ZifyNat ZifyN.
From Coq Require Import Floats.SpecFloat.
From Flocq Require Import Zaux Raux Defs Generic_fmt FLT Float_prop Round_NE Ulp Round_pred Relative BinarySingleNaN.
From Verif Require Import Base BaseProofs Num NumR NumSF MotionModel CtrlModel CtrlSpec ProfileSpec GeomSpec RunSpec GcodeModel GcodeSpec GcodeRSpec GText GStageProofs GBlockProofs GMeaningProofs GLineProofs GPathProofs.
From Verif Require Import FloatSpec FloatRunSpec FloatProgSpec FloatProofs FloatClockProofs FloatTrackProofs FloatErrProofs FloatPlanProofs FloatJobProofs FloatLimitProofs FloatReadProofs.
Import ListNotations.
Open Scope R_scope.

Lemma tiny500 : bpow radix2 (-500) <= / 1000000000000000000000000000000000000.
Proof. apply Rle_trans with (bpow radix2 (-120)); [apply bpow_le; lia|]. change (bpow radix2 (-120)) with (/ 1329227995784915872903807060280344576). lra. Qed.
(** One rounding. *)
Lemma rnd_near x : x = 0 \/ / 1000000000000000000000000000000000000 <= Rabs x -> Rabs (rnd53 x - x) <= E53 * Rabs x.
Proof. intros [H|H]; apply rnd53_rel; [auto|right]. pose proof tiny500. lra. Qed.
(** A rounding of something close to [y]. *)
Lemma nearly_rnd n x y : 0 <= n <= 8 -> nearly n x y -> y = 0 \/ / 100000000000000000000000000000000000 <= Rabs y -> nearly (n + 1001/1000) (rnd53 x) y.
Proof.
  unfold nearly. intros N H Z. pose proof (Rabs_pos y) as Y.
  assert (HN : n * (Rabs y / 9007199254740992) <= 8 * (Rabs y / 9007199254740992)) by (apply Rmult_le_compat_r; lra).
  assert (A : Rabs (rnd53 x - x) <= E53 * Rabs x).
  { apply rnd_near. destruct Z as [-> |Z].
    - left. rewrite Rabs_R0 in *. unfold Rdiv in H. rewrite Rmult_0_l, Rmult_0_r, Rminus_0_r in H. pose proof (Rabs_pos x). destruct (Req_dec x 0); auto. pose proof (Rabs_pos_lt x). lra.
    - right. pose proof (Rabs_triang_inv y x) as T. rewrite (Rabs_minus_sym y) in T. lra. }
  assert (B : Rabs x <= 1001/1000 * Rabs y). { pose proof (Rabs_triang (x - y) y) as T. replace (x - y + y) with x in T by ring. lra. }
  replace (rnd53 x - y) with ((rnd53 x - x) + (x - y)) by ring. eapply Rle_trans; [apply Rabs_triang|]. unfold E53 in A. lra.
Qed.
Lemma nearly_refl x : nearly 0 x x.
Proof. unfold nearly. rewrite Rminus_eq_0, Rabs_R0. pose proof (Rabs_pos x). lra. Qed.
Lemma nearly_mul n x y c c' m : 0 <= n <= 8 -> 0 <= m <= 8 -> nearly n x y -> nearly m c' c -> nearly (n + m + 1/1000) (x * c') (y * c).
Proof.
  unfold nearly. intros N M H G. replace (x * c' - y * c) with ((x - y) * (c' - c) + (x - y) * c + y * (c' - c)) by ring.
  pose proof (Rabs_pos y) as Y. pose proof (Rabs_pos c) as C. rewrite (Rabs_mult y c). set (e := / 9007199254740992) in *. unfold Rdiv in *. fold e in H, G |- *. assert (E0 : 0 < e < / 1000000) by (unfold e; lra).
  eapply Rle_trans; [apply Rabs_triang|]. eapply Rle_trans; [apply Rplus_le_compat_r, Rabs_triang|]. rewrite !Rabs_mult.
  assert (P1 : Rabs (x - y) * Rabs (c' - c) <= (n * (Rabs y * e)) * (m * (Rabs c * e))) by (apply Rmult_le_compat; auto using Rabs_pos).
  assert (P2 : Rabs (x - y) * Rabs c <= n * (Rabs y * e) * Rabs c) by (apply Rmult_le_compat_r; auto).
  assert (P3 : Rabs y * Rabs (c' - c) <= Rabs y * (m * (Rabs c * e))) by (apply Rmult_le_compat_l; auto).
  set (w := Rabs y * Rabs c * e). assert (W : 0 <= w) by (unfold w; repeat apply Rmult_le_pos; lra).
  assert (NM : n * m * e <= 1/1000). { assert (n * m <= 8 * 8) by (apply Rmult_le_compat; lra). assert (n * m * e <= 64 * e) by (apply Rmult_le_compat_r; lra). lra. }
  assert (NMW : n * m * e * w <= 1/1000 * w) by (apply Rmult_le_compat_r; auto).
  replace (n * (Rabs y * e) * (m * (Rabs c * e))) with (n * m * e * w) in P1 by (unfold w; ring). replace (n * (Rabs y * e) * Rabs c) with (n * w) in P2 by (unfold w; ring). replace (Rabs y * (m * (Rabs c * e))) with (m * w) in P3 by (unfold w; ring).
  replace ((n + m + 1 / 1000) * (Rabs y * Rabs c * e)) with (n * w + m * w + 1/1000 * w) by (unfold w; field). lra.
Qed.
Lemma nearly_scale n x y c : nearly n x y -> 0 < c -> nearly n (x / c) (y / c).
Proof.
  unfold nearly. intros H C. replace (x / c - y / c) with ((x - y) * / c) by (field; lra). unfold Rdiv at 2. rewrite !Rabs_mult, (Rabs_pos_eq (/ c)) by (left; apply Rinv_0_lt_compat; auto).
  replace (n * (Rabs y * / c / 9007199254740992)) with (n * (Rabs y / 9007199254740992) * / c) by (field; lra). apply Rmult_le_compat_r; [left; apply Rinv_0_lt_compat; auto|auto].
Qed.
Lemma nearly_weak n m x y : nearly n x y -> n <= m -> nearly m x y.
Proof. unfold nearly. intros H L. pose proof (Rabs_pos y). eapply Rle_trans; [exact H|]. apply Rmult_le_compat_r; lra. Qed.

(** *** Decimal texts. *)
Lemma dec_step ds : forall a, Forall (fun d => (d < 10)%N) ds -> (fold_left (fun v d => 10 * v + d) ds a < (a + 1) * 10 ^ N.of_nat (length ds))%N.
Proof.
  induction ds as [|x ds IH]; intros a F; cbn [fold_left length]; [cbn; lia|]. inversion F; subst. eapply N.lt_le_trans; [apply IH; auto|].
  rewrite Nat2N.inj_succ, N.pow_succ_r'. rewrite N.mul_assoc. apply N.mul_le_mono_r. lia.
Qed.
Lemma dec_bound ds : Forall (fun d => (d < 10)%N) ds -> (length ds <= 15)%nat -> (dec_val ds < 1000000000000000)%N.
Proof.
  intros F L. eapply N.lt_le_trans; [apply (dec_step ds 0 F)|]. replace ((0 + 1) * 10 ^ N.of_nat (length ds))%N with (10 ^ N.of_nat (length ds))%N by lia.
  change 1000000000000000%N with (10 ^ 15)%N. apply N.pow_le_mono_r; lia.
Qed.
Lemma value_near X t neg ip fp : decimal t neg ip fp -> (length (ip ++ fp) <= 15)%nat ->
  exists r, float64 (number_of (g_f X) t) r /\ nearly 1 r (decimal_value neg ip fp) /\ (r = 0 \/ / 10000000000000000 <= Rabs r <= 10000000000000000).
Proof.
  intros DT L. rewrite (number_decimal _ _ _ _ _ DT). destruct DT as (FD & _). pose proof (dec_bound _ FD L) as DB. set (z := Z.of_N (dec_val (ip ++ fp))) in *. assert (ZB : (0 <= z < 1000000000000000)%Z) by (unfold z; lia).
  rewrite app_length in L. set (k := length fp) in *.
  assert (KB : (1 <= 10 ^ Z.of_N (N.of_nat k) <= 1000000000000000)%Z).
  { split; [apply (Z.pow_le_mono_r 10 0 (Z.of_N (N.of_nat k))); lia|]. change 1000000000000000%Z with (10 ^ 15)%Z. apply Z.pow_le_mono_r; lia. }
  assert (KE : IZR (10 ^ Z.of_N (N.of_nat k)) = 10 ^ k). { rewrite nat_N_Z, <- pow_IZR. reflexivity. }
  assert (K1 : 1 <= 10 ^ k <= 1000000000000000). { rewrite <- KE. destruct KB as (Ka & Kb). split; apply IZR_le; auto. }
  set (q := IZR z / 10 ^ k).
  assert (QB : 0 <= q <= 1000000000000000). { unfold q. assert (0 <= IZR z <= 1000000000000000) by (split; apply IZR_le; lia). split; [apply Rmult_le_pos; [lra|left; apply Rinv_0_lt_compat; lra]|].
    apply (Rmult_le_reg_r (10 ^ k)); [lra|]. unfold Rdiv. rewrite Rmult_assoc, Rinv_l, Rmult_1_r by lra. apply Rle_trans with (1000000000000000 * 1); [lra|apply Rmult_le_compat_l; lra]. }
  assert (QN : q = 0 \/ / 1000000000000000 <= q).
  { destruct (Z.eq_dec z 0) as [-> |NZ]; [left; unfold q, Rdiv; ring|right]. unfold q. apply Rle_trans with (1 * / 10 ^ k); [rewrite Rmult_1_l; apply Rinv_le_contravar; lra|apply Rmult_le_compat_r; [left; apply Rinv_0_lt_compat; lra|apply IZR_le; lia]]. }
  assert (F : fin64 (ndec (g_f X) z (N.of_nat k)) (rnd53 q)).
  { pose proof (fin_float64 _ _ (float64_lit X z ltac:(lia))) as Fz. pose proof (fin_float64 _ _ (float64_lit X (10 ^ Z.of_N (N.of_nat k)) ltac:(lia))) as Fk. rewrite KE in Fk.
    assert (NZ : 10 ^ k <> 0) by lra. refine (fin_div _ _ prec53 max53 _ _ _ _ Fz Fk NZ _).
    unfold small. change (Rabs (rnd53 q) < bpow radix2 1024). pose proof (rnd53_err q) as E. pose proof (Rabs_triang (rnd53 q - q) q) as T. replace (rnd53 q - q + q) with (rnd53 q) in T by ring.
    rewrite (Rabs_pos_eq q) in * by lra. apply Rle_lt_trans with (bpow radix2 60); [|apply bpow_lt; lia]. change (bpow radix2 60) with 1152921504606846976. unfold eta in E. lra. }
  assert (N1 : Rabs (rnd53 q - q) <= E53 * Rabs q). { apply rnd_near. destruct QN as [Q|Q]; [auto|right]. rewrite Rabs_pos_eq by lra. lra. }
  assert (N2 : rnd53 q = 0 \/ / 10000000000000000 <= Rabs (rnd53 q) <= 10000000000000000).
  { rewrite (Rabs_pos_eq q) in N1 by lra. unfold E53 in N1. apply Rabs_le_inv in N1. destruct QN as [Q|Q]; [left; rewrite Q in *; lra|right]. rewrite Rabs_pos_eq by lra. lra. }
  unfold decimal_value. fold z k q. destruct neg.
  - exists (- rnd53 q). split; [apply float64_fin; apply (fin_opp _ _ _ _ F)|]. split; [|rewrite Rabs_Ropp; destruct N2 as [N2|N2]; [left; lra|right; auto]].
    unfold nearly. replace (- rnd53 q - -1 * q) with (- (rnd53 q - q)) by ring. replace (-1 * q) with (- q) by ring. rewrite !Rabs_Ropp. unfold E53 in N1. lra.
  - exists (rnd53 q). split; [apply float64_fin; exact F|]. split; [|exact N2]. unfold nearly. rewrite Rmult_1_l. unfold E53 in N1. lra.
Qed.

(** *** Coordinates and feeds. *)
Lemma mm_near X v x r : float64 x r -> sensible r -> exists y, float64 (to_mm (g_f X) v x) y /\ nearly 3 y (mm v r) /\ (v = G21 -> y = r) /\ (sensible r -> y = 0 \/ / 10000000000000000000000000000000 <= Rabs y <= 30000000000000).
Proof.
  intros F S. destruct v; cbn [to_mm mm]; revgoals.
  - destruct (value_near X [50; 53; 46; 52]%N false [2; 5]%N [4]%N) as (k & Fk & Nk & _).
    { split; [repeat constructor|]. split; [discriminate|]. exists []. split; [left; reflexivity|]. left. reflexivity. } { cbn. lia. }
    assert (EK : number_of (g_f X) [50; 53; 46; 52]%N = ndec (g_f X) 254 1). { rewrite (number_decimal _ [50; 53; 46; 52]%N false [2; 5]%N [4]%N); [reflexivity|]. split; [repeat constructor|]. split; [discriminate|]. exists []. split; [left; reflexivity|]. left. reflexivity. }
    rewrite EK in Fk. assert (DV : decimal_value false [2; 5]%N [4]%N = 254 / 10). { unfold decimal_value. cbn [app length]. change (dec_val [2; 5; 4]%N) with 254%N. cbn. lra. } rewrite DV in Nk.
    pose proof (nearly_mul 0 r r (254/10) k 1 ltac:(lra) ltac:(lra) (nearly_refl r) Nk) as P.
    assert (RB : Rabs (r * (254/10)) = 254/10 * Rabs r) by (rewrite Rabs_mult, (Rabs_pos_eq (254/10)) by lra; ring).
    assert (Z : r * (254/10) = 0 \/ / 100000000000000000000000000000000000 <= Rabs (r * (254/10))). { rewrite RB. destruct S as [-> |S]; [left; ring|right; lra]. }
    assert (NB : 0 <= 0 + 1 + 1/1000 <= 8) by lra. pose proof (nearly_rnd _ _ _ NB P Z) as P2.
    assert (PB : Rabs (r * k) <= 1001/1000 * Rabs (r * (254/10))). { unfold nearly in P. pose proof (Rabs_pos (r * (254/10))). pose proof (Rabs_triang (r * k - r * (254/10)) (r * (254/10))) as T. replace (r * k - r * (254/10) + r * (254/10)) with (r * k) in T by ring. lra. }
    exists (rnd53 (r * k)). split.
    { apply float64_fin. refine (fin_mul _ _ prec53 max53 _ _ _ _ (fin_float64 _ _ F) (fin_float64 _ _ Fk) _).
      unfold small. change (Rabs (rnd53 (r * k)) < bpow radix2 1024). apply Rle_lt_trans with (bpow radix2 60); [|apply bpow_lt; lia]. change (bpow radix2 60) with 1152921504606846976.
      unfold nearly in P2. pose proof (Rabs_triang (rnd53 (r * k) - r * (254/10)) (r * (254/10))) as T. replace (rnd53 (r * k) - r * (254/10) + r * (254/10)) with (rnd53 (r * k)) in T by ring.
      destruct S as [S|S]; [rewrite S, Rabs_R0 in *; lra|lra]. }
    split; [eapply nearly_weak; [exact P2|lra]|]. split; [discriminate|]. intros _. unfold nearly in P2.
    pose proof (Rabs_triang (rnd53 (r * k) - r * (254/10)) (r * (254/10))) as T. replace (rnd53 (r * k) - r * (254/10) + r * (254/10)) with (rnd53 (r * k)) in T by ring.
    pose proof (Rabs_triang_inv (r * (254/10)) (rnd53 (r * k))) as T2. rewrite (Rabs_minus_sym (r * (254/10))) in T2.
    destruct S as [S|S]; [left|right; lra]. rewrite S, Rmult_0_l. apply rnd53_id, generic_format_0.
  - exists r. split; auto. split; [eapply nearly_weak; [apply nearly_refl|lra]|]. split; auto. intros [-> |R]; [auto|right; lra].
Qed.
Lemma coordinate_near X pi c m l c' m' ws ch i g x r : line_words (g_f X) l ws -> reached (g_f X) pi c m -> g_line (g_f X) pi c m l = Ok (c', m') -> made_motion c' m' -> s_dist (g_st c') = G90 ->
  In (ch, i, g) axis_letters -> has_value ws ch x -> float64 x r -> sensible r ->
  exists y, float64 (coord_at (g_f X) (s_cur (g_st c')) i) y /\ nearly 3 y (mm (s_unit (g_st c')) r) /\ (s_unit (g_st c') = G21 -> y = r).
Proof.
  intros LW RE H MM DI AX HV F S. pose proof (reached_sized _ _ _ _ RE) as SZ. pose proof (reached_line _ _ _ _ _ _ _ RE H) as RE'. pose proof (reached_wcs _ _ _ _ RE') as EW.
  destruct (absolute_lemma _ _ c m l c' m' ws ch i g x LW SZ H MM DI AX HV) as (A1 & A2). cbv zeta in A1, A2.
  destruct (mm_near X (s_unit (g_st c')) x r F S) as (y & Fy & Ny & Ey & Yb). specialize (Yb S).
  assert (OZ : forall co, offset (g_f X) (g_st c') co i = nofZ (g_f X) 0).
  { intro co. unfold offset, coord_at. rewrite EW. cbn [axis_letters In] in AX. repeat (destruct AX as [AX|AX]; [injection AX as <- <- <-; destruct co; reflexivity|]). contradiction. }
  assert (E : coord_at (g_f X) (s_cur (g_st c')) i = nadd (g_f X) (nofZ (g_f X) 0) (to_mm (g_f X) (s_unit (g_st c')) x)).
  { assert (DD : has ws cG 530 \/ ~ has ws cG 530). { unfold has. destruct (existsb (fun w => (w_letter w =? cG)%N && (w_int w =? 530)%N) ws) eqn:B.
      - left. apply existsb_exists in B. destruct B as (w & I & Q). apply andb_prop in Q. destruct Q as (Q1 & Q2). apply N.eqb_eq in Q1, Q2. exists w. auto.
      - right. intros (w & I & Q1 & Q2). assert (existsb (fun w => (w_letter w =? cG)%N && (w_int w =? 530)%N) ws = true); [|congruence]. apply existsb_exists. exists w. split; auto. apply andb_true_intro. split; apply N.eqb_eq; auto. }
    destruct DD as [DD|DD]; [rewrite (A2 DD)|rewrite (A1 DD)]; now rewrite OZ. }
  exists y. split; [|auto]. rewrite E. apply float64_fin. pose proof (fin_float64 _ _ Fy) as Gy.
  pose proof (fin_add _ _ prec53 max53 _ _ _ _ (fin_zero 53 1024 false) Gy) as Q. rewrite Rplus_0_l in Q.
  assert (G : rnd53 y = y). { apply rnd53_id. destruct Gy as (b & _ & _ & <-). apply (generic_format_B2R 53 1024). } 
  change (round radix2 (SpecFloat.fexp 53 1024) (Znearest (fun z => negb (Z.even z))) y) with (rnd53 y) in Q. rewrite G in Q. apply Q.
  unfold small. change (Rabs (rnd53 y) < bpow radix2 1024). rewrite G. apply Rle_lt_trans with (bpow radix2 60); [|apply bpow_lt; lia]. change (bpow radix2 60) with 1152921504606846976. destruct Yb as [-> |Yb]; [rewrite Rabs_R0; lra|lra].
Qed.
(** The feed, in any arithmetic. *)
Lemma feed_any {D} (K : num D) pi c m l c' m' ws : line_words K l ws -> sized (g_st c) -> g_line K pi c m l = Ok (c', m') -> made_motion c' m' ->
  (sm_type m' = traverse -> sm_vFeed m' = ninf K) /\
  (sm_type m' = feedLinear -> forall x, active_feed K ws (letter K (g_st c) LtF) x ->
    sm_vFeed m' = match s_feed (g_st c') with G93 => ndiv K (nmul K (sm_length m') x) (nofZ K 60) | G94 => ndiv K (to_mm K (s_unit (g_st c')) x) (nofZ K 60) end).
Proof.
  intros LW SZ H MM. destruct (line_motion K pi c m l c' m' ws LW SZ H) as [(A & _)|(_ & CO & (sP & b & t & KO) & _)]; [contradiction|].
  pose proof (k_calc _ _ _ _ _ _ _ _ _ _ KO) as KC. destruct (calcMotion_fields K pi _ _ _ _ _ KC) as (T & _). cbn [sm_type sm_with_type] in T.
  assert (LT : is_line_type (sm_type m') -> is_line_type (sm_type (sm_with_type t (sm_with_type mt_none m)))) by (cbn [sm_type sm_with_type]; now rewrite <- T).
  split.
  - intro TT. destruct (straight_calc K pi _ _ _ _ _ (LT (or_introl TT)) KC) as (_ & _ & _ & _ & S5 & _). auto.
  - intros TT x AF. destruct (straight_calc K pi _ _ _ _ _ (LT (or_intror TT)) KC) as (_ & _ & _ & _ & _ & S6). rewrite (S6 TT). rewrite (k_feed _ _ _ _ _ _ _ _ _ _ KO).
    assert (EX : letter K sP LtF = x).
    { destruct CO as (_ & NL). destruct AF as [(V & P)|(NF & NM & E)].
      - destruct (k_F _ _ _ _ _ _ _ _ _ _ KO) as [(V' & _)|(_ & [N|(z & V' & P')])].
        + apply (value_unique ws cF LtF _ _ NL); [unfold value_letters; cbn; auto 20|exact V'|exact V].
        + destruct V as (w & I & E & _). exfalso. apply N. exists w. auto.
        + assert (z = x) as -> by (apply (value_unique ws cF LtF _ _ NL); [unfold value_letters; cbn; auto 20|exact V'|exact V]). congruence.
      - destruct (k_F _ _ _ _ _ _ _ _ _ _ KO) as [((w & I & E' & _) & _)|([((l0 & n0 & v0 & I & HH) & _)|(_ & E')] & _)].
        + exfalso. apply NF. exists w. auto.
        + destruct (NM _ _ _ I HH).
        + rewrite E'. now symmetry. }
    rewrite EX. unfold in_mm, to_mm. rewrite (k_unit _ _ _ _ _ _ _ _ _ _ KO). reflexivity.
Qed.
Lemma feed_near X pi c m l c' m' ws : line_words (g_f X) l ws -> reached (g_f X) pi c m -> g_line (g_f X) pi c m l = Ok (c', m') -> made_motion c' m' ->
  (sm_type m' = traverse -> sm_vFeed m' = S754_infinity false) /\
  (sm_type m' = feedLinear -> forall x f, active_feed (g_f X) ws (letter (g_f X) (g_st c) LtF) x -> float64 x f -> sensible f -> s_feed (g_st c') = G94 ->
     exists v, float64 (sm_vFeed m') v /\ nearly 5 v (mm (s_unit (g_st c')) f / 60)).
Proof.
  intros LW RE H MM. destruct (feed_any _ pi c m l c' m' ws LW (reached_sized _ _ _ _ RE) H MM) as (F1 & F2). split; [exact F1|].
  intros TT x f AF Fx Sf E94. rewrite (F2 TT x AF), E94. destruct (mm_near X (s_unit (g_st c')) x f Fx Sf) as (y & Fy & Ny & _ & Yb). specialize (Yb Sf).
  pose proof (fin_float64 _ _ Fy) as Gy. pose proof (fin_float64 _ _ (float64_lit X 60 ltac:(lia))) as G60.
  pose proof (nearly_scale 3 y _ 60 Ny ltac:(lra)) as N2.
  assert (Z : mm (s_unit (g_st c')) f / 60 = 0 \/ / 100000000000000000000000000000000000 <= Rabs (mm (s_unit (g_st c')) f / 60)).
  { unfold Rdiv. rewrite Rabs_mult, (Rabs_pos_eq (/ 60)) by lra. destruct (s_unit (g_st c')); cbn [mm]; [|rewrite Rabs_mult, (Rabs_pos_eq (254/10)) by lra]; (destruct Sf as [-> |Sf]; [left; lra|right; lra]). }
  pose proof (nearly_rnd 3 _ _ ltac:(lra) N2 Z) as N3. exists (rnd53 (y / 60)). split; [|eapply nearly_weak; [exact N3|lra]].
  apply float64_fin. refine (fin_div _ _ prec53 max53 _ _ _ _ Gy G60 _ _); [lra|]. apply small53. unfold Rdiv. rewrite Rabs_mult, (Rabs_pos_eq (/ 60)) by lra. destruct Yb as [-> |Yb]; [rewrite Rabs_R0; lra|lra].
Qed.

(** *** An example. *)
Lemma prog_run X : exists c m outs, GcodeModel.g_run (g_f X) pi_f (gcode0 (g_f X)) (sm_new (g_f X)) (map txt ex_prog) = Ok (c, m, outs) /\
  map (fun o => (g_res (fst o), sm_type (snd o))) outs = [(OkContextUpdateOnly, mt_none); (OkContextUpdateAndMotion, feedLinear); (OkContextUpdateOnly, mt_none); (OkContextUpdateAndMotion, feedLinear)] /\
  map (fun o => s_cur (g_st (fst o))) (passed_on outs) = [map (nofZ (g_f X)) [50; 0; 0]%Z; map (nofZ (g_f X)) [20; 40; 0]%Z] /\
  map (fun o => sm_vFeed (snd o)) (passed_on outs) = [nofZ (g_f X) 20; nofZ (g_f X) 20].
Proof. eexists. eexists. eexists. split; [vm_compute; reflexivity|]. repeat split; vm_compute; reflexivity. Qed.
Lemma prog_example X : let A := sf_arith X in let M := cnc3axis A in let fo := nofZ (aF A) 1 in let k := c_init A 375 (tickWidth A) in
  let x0 := ex_at [0; 0; 0]%Z in let stops := [ex_at [50; 0; 0]%Z; ex_at [20; 40; 0]%Z] in
  funit_ok X M ex_unit /\ shop_ok X M ex_unit ex_shop /\ float32 (tickWidth A) (fu_W ex_unit) /\ idle X k (tickWidth A) fo /\
  (forall i, (i < 3)%nat -> Rabs (fu_k ex_unit i * x0 i - counted k i) <= 54/100) /\
  reached (g_f X) pi_f (gcode0 (g_f X)) (sm_new (g_f X)) /\ float64 (sm_radius (sm_new (g_f X))) 0 /\ at64 X (s_cur (g_st (gcode0 (g_f X)))) x0 /\
  (exists c m outs, GcodeModel.g_run (g_f X) pi_f (gcode0 (g_f X)) (sm_new (g_f X)) (map txt ex_prog) = Ok (c, m, outs) /\
    straight_only outs /\ stops_fit X ex_unit ex_shop fo x0 (passed_on outs) stops [Some 20; Some 20]) /\
  (forall i, (i < 3)%nat -> Rabs (fu_k ex_unit i * last stops x0 i - IZR (nth i [4000; 8000; 0]%Z 0%Z)) < 999/1000 - reach (fu_B ex_unit) (fu_H ex_unit)).
Proof.
  cbv zeta. destruct (job_example X) as (J1 & J2 & J3 & _ & _ & J4 & _). destruct (limits_example X) as (LE & _). cbv zeta in *.
  assert (L32 : forall z, (Z.abs z <= 16777216)%Z -> float32 (nofZ (aF (sf_arith X)) z) (IZR z)) by (intros z Hz; apply fin_float32, fin_lit; auto).
  assert (AT : forall l, (forall i, (Z.abs (nth i l 0) <= 9007199254740992)%Z) -> at64 X (map (nofZ (g_f X)) l) (ex_at l)).
  { intros l Hl i Hi. unfold coord_at, ex_at. change (nofZ (g_f X) 0) with (nofZ (g_f X) 0%Z). rewrite map_nth. apply float64_lit. apply Hl. }
  split; [destruct J3 as [U1 U2 U3 U4]; constructor; cbn [ex_unit fu_k fu_B fu_H fu_W fu_T]; auto; lra|]. split.
  { constructor; cbn [ex_shop ex_unit sh_a sh_d sh_v sh_j sh_a0 sh_a1 sh_V0 sh_V1 sh_L0 sh_L1 fu_k fu_B fu_H fu_W fu_T]; unfold tick_gap, last_gap; try (intros; lra); try lra. exact LE. }
  split; [exact J2|]. split; [exact J1|]. split.
  { intros i Hi. unfold ex_at. replace (nth i [0; 0; 0]%Z 0%Z) with 0%Z by (destruct i as [|[|[|i]]]; [reflexivity..|lia]). apply (J4 i Hi). }
  split. { exists [], []. reflexivity. } split; [apply (float64_lit X 0); lia|].
  split. { apply (AT [0; 0; 0]%Z). intros [|[|[|i]]]; cbn; try lia. destruct i; lia. }
  split.
  { destruct (prog_run X) as (c & m & outs & E & E1 & E2 & E3). exists c, m, outs. split; [exact E|]. split.
    - unfold straight_only. destruct outs as [|o1 [|o2 [|o3 [|o4 [|o5 outs]]]]]; try discriminate E1. cbn [map] in E1. injection E1 as A1 A2 A3 A4 A5 A6 A7 A8.
      do 4 (apply Forall_cons; [intros (NM & _); first [exfalso; apply NM; assumption|split; [right; assumption|assumption]]|]). apply Forall_nil.
    - destruct (passed_on outs) as [|o1 [|o2 [|o3 os]]]; try discriminate E2. cbn [map] in E2, E3. injection E2 as A1 A2. injection E3 as V1 V2.
      cbn [stops_fit fst snd]. change (map (nofZ (g_f X)) [50; 0; 0]%Z) with [nofZ (g_f X) 50; nofZ (g_f X) 0; nofZ (g_f X) 0] in *.
      assert (D1 : distance (ex_at [0; 0; 0]%Z) (ex_at [50; 0; 0]%Z) = 50). { unfold distance, ex_at, sq. cbn [nth]. replace ((50 - 0) * (50 - 0) + (0 - 0) * (0 - 0) + (0 - 0) * (0 - 0)) with (50 * 50) by ring. apply R_sqrt.sqrt_square. lra. }
      assert (D2 : distance (ex_at [50; 0; 0]%Z) (ex_at [20; 40; 0]%Z) = 50). { unfold distance, ex_at, sq. cbn [nth]. replace ((20 - 50) * (20 - 50) + (40 - 0) * (40 - 0) + (0 - 0) * (0 - 0)) with (50 * 50) by ring. apply R_sqrt.sqrt_square. lra. }
      assert (FF : forall o : @gcode sf * smotion sf, sm_vFeed (snd o) = nofZ (g_f X) 20 -> feed_fits ex_shop (nofZ (aF (sf_arith X)) 1) (snd o) (Some 20)).
      { intros o Eo. exists 1. split; [apply (L32 1%Z); lia|]. split; [lra|]. exists 20. rewrite Eo. split; [apply (float64_lit X 20); lia|]. cbn [ex_shop sh_V0 sh_V1]. lra. }
      split; [rewrite A1; apply (AT [50; 0; 0]%Z); intros [|[|[|[|i]]]]; cbn; lia|]. split.
      { unfold leg_fits. rewrite D1. cbn [ex_shop ex_unit sh_L0 sh_L1 fu_k fu_B fu_H]. split; [lra|]. intros [|[|[|i]]] Hi; try lia; unfold ex_at; cbn [nth]; (split; [first [left; lra|right; unfold Rabs; destruct (Rcase_abs _); lra]|]); rewrite Rabs_R0; lra. }
      split; [apply FF; exact V1|]. split; [rewrite A2; apply (AT [20; 40; 0]%Z); intros [|[|[|[|i]]]]; cbn; lia|]. split.
      { unfold leg_fits. rewrite D2. cbn [ex_shop ex_unit sh_L0 sh_L1 fu_k fu_B fu_H]. split; [lra|]. intros [|[|[|i]]] Hi; try lia; unfold ex_at; cbn [nth]; (split; [first [left; lra|right; unfold Rabs; destruct (Rcase_abs _); lra]|]); rewrite Rabs_pos_eq by lra; lra. }
      split; [apply FF; exact V2|exact I]. }
  intros [|[|[|i]]] Hi; try lia; unfold ex_at, reach, slack; cbn [ex_unit fu_k fu_B fu_H nth last]; apply Rabs_def1; lra.
Qed.
Lemma words_example X : decimal (txt "-12.50") true [1; 2]%N [5; 0]%N /\ reached (g_f X) pi_f (gcode0 (g_f X)) (sm_new (g_f X)) /\
  exists c m ws, line_words (g_f X) ex_line ws /\ g_line (g_f X) pi_f (gcode0 (g_f X)) (sm_new (g_f X)) ex_line = Ok (c, m) /\ made_motion c m /\
    s_dist (g_st c) = G90 /\ s_unit (g_st c) = G20 /\ s_feed (g_st c) = G94 /\ sm_type m = feedLinear /\
    has_value ws cX (nofZ (g_f X) 2) /\ float64 (nofZ (g_f X) 2) 2 /\ active_feed (g_f X) ws (letter (g_f X) (g_st (gcode0 (g_f X))) LtF) (nofZ (g_f X) 10) /\ float64 (nofZ (g_f X) 10) 10 /\ sensible 2 /\ sensible 10.
Proof.
  split. { split; [repeat constructor|]. split; [discriminate|]. exists [45]%N. split; [reflexivity|]. left. reflexivity. }
  split. { exists [], []. reflexivity. }
  destruct (getBlock (g_f X) ex_line) as [b|] eqn:E; [|vm_compute in E; discriminate].
  destruct (g_line (g_f X) pi_f (gcode0 (g_f X)) (sm_new (g_f X)) ex_line) as [[c m]|] eqn:E2; [|vm_compute in E2; discriminate].
  exists c, m, (b_words b). split; [exists b; auto|]. split; [reflexivity|]. vm_compute in E2. injection E2 as <- <-. vm_compute in E. injection E as <-.
  split; [split; vm_compute; discriminate|]. do 4 (split; [reflexivity|]).
  split. { eexists. split; [right; right; left; reflexivity|]. split; vm_compute; reflexivity. }
  split; [apply (float64_lit X 2); lia|]. split. { left. split; [|vm_compute; reflexivity]. eexists. split; [right; right; right; left; reflexivity|]. split; vm_compute; reflexivity. }
  split; [apply (float64_lit X 10); lia|]. split; right; rewrite Rabs_pos_eq; lra.
Qed.
