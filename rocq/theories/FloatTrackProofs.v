(** binary32: the step decision and the tracking of a trajectory. *)
Require Import List Arith NArith ZArith Bool Reals Lra Lia.
From Coq Require Import Floats.SpecFloat.
From Flocq Require Import Zaux Raux Defs Generic_fmt FLT Float_prop Round_NE Ulp Round_pred Relative BinarySingleNaN.
From Verif Require Import Base BaseProofs StepModel StepSpec Num NumSF NumR MotionModel CtrlModel CtrlSpec CtrlRSpec CtrlProofs CtrlTrackProofs FloatSpec FloatProofs FloatClockProofs.
Import ListNotations.
Open Scope R_scope.

Lemma bpow_neg e : (e < 0)%Z -> bpow radix2 e = / IZR (2 ^ (- e)).
Proof.
  intro. replace e with (- (- e))%Z at 1 by lia. rewrite bpow_opp. f_equal. rewrite <- IZR_Zpower by lia. reflexivity.
Qed.
Lemma bpow_pos' e : (0 <= e)%Z -> bpow radix2 e = IZR (2 ^ e).
Proof. intro. rewrite <- IZR_Zpower by lia. reflexivity. Qed.

Lemma toZ_fin x z : fin32 x (IZR z) -> sf_toZ x = Some z.
Proof.
  intro F. apply fin_value in F. destruct x as [s|s| |s m e]; try contradiction; cbn [sf_toZ].
  - f_equal. apply eq_IZR. auto.
  - f_equal. destruct (Z.leb_spec 0 e) as [L|L].
    + rewrite bpow_pos' in F by auto. rewrite <- mult_IZR in F. apply eq_IZR in F. rewrite F. destruct s; cbn [cond_Zopp]; lia.
    + rewrite bpow_neg in F by auto. assert (0 < 2 ^ (- e))%Z as DP by (apply Z.pow_pos_nonneg; lia). set (d := (2 ^ (- e))%Z) in *.
      assert (z * d = cond_Zopp s (Z.pos m))%Z as E.
      { apply eq_IZR. rewrite mult_IZR, F. field. apply (IZR_lt 0) in DP. lra. }
      destruct s; cbn [cond_Zopp] in E.
      * replace (Z.pos m) with ((- z) * d)%Z by lia. rewrite Z.div_mul by lia. lia.
      * replace (Z.pos m) with (z * d)%Z by lia. rewrite Z.div_mul by lia. lia.
Qed.

Lemma round_fin x r : fin32 x r -> Rabs r <= 8388608 -> exists z, fin32 (sf_round 24 128 x) (IZR z) /\ Rabs (IZR z - r) <= / 2.
Proof.
  intros F B. pose proof (fin_value _ _ _ _ F) as V. destruct x as [s|s| |s m e]; try contradiction; cbn [sf_round].
  - exists 0%Z. subst. split; [auto|]. rewrite Rminus_0_r, Rabs_R0. lra.
  - destruct (Z.leb_spec 0 e) as [L|L].
    + rewrite bpow_pos' in V by auto. rewrite <- mult_IZR in V. rewrite V in F. exists (cond_Zopp s (Z.pos m) * 2 ^ e)%Z. split; auto. rewrite V. unfold Rminus. rewrite Rplus_opp_r, Rabs_R0. lra.
    + rewrite bpow_neg in V by auto. assert (0 < 2 ^ (- e))%Z as DP by (apply Z.pow_pos_nonneg; lia). set (d := (2 ^ (- e))%Z) in *. cbv zeta.
      set (n := ((2 * Z.pos m + d) / (2 * d))%Z).
      assert (2 * d * n <= 2 * Z.pos m + d < 2 * d * n + 2 * d)%Z as N.
      { unfold n. pose proof (Z.div_mod (2 * Z.pos m + d) (2 * d) ltac:(lia)). pose proof (Z.mod_pos_bound (2 * Z.pos m + d) (2 * d) ltac:(lia)). lia. }
      assert (0 <= n)%Z as N0 by (apply Z.div_pos; lia).
      assert (DR : 0 < IZR d) by (apply (IZR_lt 0); auto).
      assert (NR : Rabs (IZR n - IZR (Z.pos m) * / IZR d) <= / 2).
      { revert N. clear -DR. intro N. set (mz := Z.pos m) in *. clearbody n mz. destruct N as (N1 & N2). apply IZR_le in N1. apply IZR_lt in N2. repeat rewrite ?plus_IZR, ?mult_IZR in N1. repeat rewrite ?plus_IZR, ?mult_IZR in N2.
        set (q := IZR mz * / IZR d). assert (Q : IZR mz = q * IZR d) by (unfold q; field; lra). rewrite Q in N1, N2.
        apply Rabs_le. split; apply Rmult_le_reg_r with (IZR d); auto; lra. }
      assert (NZ : Rabs (IZR (if s then (- n)%Z else n) - r) <= / 2).
      { rewrite V. destruct s; cbn [cond_Zopp]; auto. change (Z.neg m) with (- Z.pos m)%Z. rewrite !opp_IZR. rewrite <- Rabs_Ropp. eapply Rle_trans; [|exact NR]. apply Req_le. f_equal. ring. }
      assert (Hn : (n <= 16777215)%Z).
      { apply le_IZR. rewrite V in B. assert (IZR (Z.pos m) * / IZR d <= 8388608).
        { apply Rabs_le_inv in B. destruct s; cbn [cond_Zopp] in B; [|lra]. change (Z.neg m) with (- Z.pos m)%Z in B. rewrite opp_IZR in B. lra. }
        apply Rabs_le_inv in NR. lra. }
      exists (if s then (- n)%Z else n). split; auto. clearbody n. destruct n as [|n|n]; try lia.
      * destruct s; apply fin_zero.
      * assert (Hs : (Z.abs (if s then (- Z.pos n)%Z else Z.pos n) <= 16777216)%Z) by (destruct s; lia).
        rewrite <- (rnd_int _ Hs). rewrite <- F2R_0. apply (fin_normalize _ _ prec24 max24). rewrite F2R_0. apply small_le. rewrite <- abs_IZR. apply (IZR_le _ 1000000000000). lia.
Qed.

Definition hyst : R := 13421773 / 268435456.
Lemma hyst_fin X : fin32 (hysteresis (sf_arith X)) hyst.
Proof.
  apply fin_float32. split; [reflexivity|]. assert (E : hysteresis (sf_arith X) = S754_finite false 13421773 (-28)) by reflexivity.
  rewrite E. cbn [sf_val]. f_equal. rewrite <- bpow_val. change (bpow radix2 (-28)) with (/ 268435456). unfold hyst. lra.
Qed.

Definition near_steps (B x : R) (u v : Z) : Prop :=
  Rabs (IZR u - (x - 5/100)) <= / 2 + slack B /\ Rabs (IZR v - (x + 5/100)) <= / 2 + slack B.

Section Decide.
Variables (X : sf_funs) (M : machine sf) (i : nat) (k : R).
Notation A := (sf_arith X).
Hypothesis HK : float32 (nthF A (m_stepsPerMm M) i) k.

Lemma prod_fin mm r B : float32 mm r -> Rabs (r * k) <= B -> B <= 1048576 ->
  exists y, fin32 (nmul (aF A) mm (nthF A (m_stepsPerMm M) i)) y /\ Rabs (y - r * k) <= eps * B + eta.
Proof.
  intros F L LB. exists (rnd (r * k)). cbn [aF sf_arith sf_num nmul]. split.
  - apply (fin_mul _ _ prec24 max24); [apply fin_float32; auto|apply fin_float32; exact HK|]. apply small_le. lra.
  - eapply Rle_trans; [apply rnd_err|]. apply Rplus_le_compat_r. apply Rmult_le_compat_l; auto. unfold eps. lra.
Qed.

Lemma decide_fin (c : ctrl sf) mm r B : float32 mm r -> Rabs (r * k) <= B -> B <= 1048576 -> (Z.abs (nth i (c_pos c) 0) <= 2000000)%Z ->
  exists u v, near_steps B (r * k) u v /\
    needStepForward A M c i mm = Ok (nth i (c_pos c) 0 <? u)%Z /\ needStepBackward A M c i mm = (v <? nth i (c_pos c) 0)%Z.
Proof.
  intros F L LB PB. destruct (prod_fin mm r B F L LB) as (y & FY & EY). pose proof (hyst_fin X) as HF.
  set (p := nth i (c_pos c) 0%Z) in *. set (x := r * k) in *.
  assert (YB : Rabs y <= 1048577).
  { apply Rabs_le_inv in EY. apply Rabs_le_inv in L. apply Rabs_le. unfold eps, eta in EY. lra. }
  assert (S1 : fin32 (nsub (aF A) (nmul (aF A) mm (nthF A (m_stepsPerMm M) i)) (hysteresis A)) (rnd (y - hyst))).
  { apply (fin_sub _ _ prec24 max24); auto. apply small_le. apply Rabs_le_inv in YB. apply Rabs_le. unfold hyst. lra. }
  assert (S2 : fin32 (nadd (aF A) (nmul (aF A) mm (nthF A (m_stepsPerMm M) i)) (hysteresis A)) (rnd (y + hyst))).
  { apply (fin_add _ _ prec24 max24); auto. apply small_le. apply Rabs_le_inv in YB. apply Rabs_le. unfold hyst. lra. }
  pose proof (rnd_err (y - hyst)) as R1. pose proof (rnd_err (y + hyst)) as R2.
  assert (A1 : Rabs (y - hyst) <= Rabs x + eps * B + eta + hyst).
  { replace (y - hyst) with (x + (y - x) + - hyst) by ring. eapply Rle_trans; [apply Rabs_triang|]. rewrite Rabs_Ropp, (Rabs_pos_eq hyst) by (unfold hyst; lra).
    apply Rplus_le_compat_r. eapply Rle_trans; [apply Rabs_triang|]. lra. }
  assert (A2 : Rabs (y + hyst) <= Rabs x + eps * B + eta + hyst).
  { replace (y + hyst) with (x + (y - x) + hyst) by ring. eapply Rle_trans; [apply Rabs_triang|]. rewrite (Rabs_pos_eq hyst) by (unfold hyst; lra).
    apply Rplus_le_compat_r. eapply Rle_trans; [apply Rabs_triang|]. lra. }
  set (a := Rabs (y - hyst)) in *. set (b := Rabs (y + hyst)) in *.
  apply Rabs_le_inv in R1. apply Rabs_le_inv in R2. assert (L' := L). apply Rabs_le_inv in L. apply Rabs_le_inv in EY.
  destruct (round_fin _ _ S1) as (u & U1 & U2). { apply Rabs_le. unfold eps, eta, hyst in *. lra. }
  destruct (round_fin _ _ S2) as (v & V1 & V2). { apply Rabs_le. unfold eps, eta, hyst in *. lra. }
  apply Rabs_le_inv in U2. apply Rabs_le_inv in V2.
  assert (NS : near_steps B x u v). { unfold near_steps, slack. split; apply Rabs_le; unfold eps, eta, hyst in *; lra. }
  exists u, v. split; [exact NS|]. split.
  - unfold needStepForward. cbn [ntoZ nround aF sf_arith sf_num] in *. rewrite (toZ_fin _ _ U1).
    assert (int32_ok u = true) as ->; [|reflexivity].
    destruct NS as (N1 & _). apply Rabs_le_inv in N1. unfold slack in N1. apply andb_true_intro. split; apply Z.leb_le; apply le_IZR; lra.
  - unfold needStepBackward. assert (FP : fin32 (nofZ (aF A) p) (IZR p)).
    { rewrite <- (rnd_int p) by lia. apply (fin_ofZ _ _ prec24 max24). apply small_le. rewrite <- abs_IZR. apply (IZR_le _ 1000000000000). lia. }
    refine (eq_trans (fin_ltb _ _ _ _ _ _ V1 FP) _). unfold p. destruct (Z.ltb_spec v (nth i (c_pos c) 0)%Z) as [H|H].
    + apply Rlt_bool_true. apply IZR_lt. auto.
    + apply Rlt_bool_false. apply IZR_le. auto.
Qed.

(** The decision by thresholds. *)
Definition fdec (p u v : Z) : option dir := if (p <? u)%Z then Some Fwd else if (v <? p)%Z then Some Bwd else None.
Lemma decide_fdec (c : ctrl sf) mm r B : float32 mm r -> Rabs (r * k) <= B -> B <= 1048576 -> (Z.abs (nth i (c_pos c) 0) <= 2000000)%Z ->
  exists u v, near_steps B (r * k) u v /\ c_decide A M c i mm = Ok (fdec (nth i (c_pos c) 0%Z) u v).
Proof.
  intros. destruct (decide_fin c mm r B) as (u & v & N & E1 & E2); auto. exists u, v. split; auto. unfold c_decide. rewrite E1. cbn [rbind]. rewrite E2. reflexivity.
Qed.
Lemma fdec_spec p u v B x : near_steps B x u v ->
  match fdec p u v with
  | Some Fwd => IZR p + 55/100 - slack B <= x
  | Some Bwd => x <= IZR p - 55/100 + slack B
  | None => Rabs (x - IZR p) <= 55/100 + slack B
  end.
Proof.
  intros (N1 & N2). apply Rabs_le_inv in N1. apply Rabs_le_inv in N2. unfold fdec. destruct (Z.ltb_spec p u) as [H|H].
  - assert (IZR (p + 1) <= IZR u) by (apply IZR_le; lia). rewrite plus_IZR in *. lra.
  - destruct (Z.ltb_spec v p) as [H2|H2].
    + assert (IZR (v + 1) <= IZR p) by (apply IZR_le; lia). rewrite plus_IZR in *. lra.
    + apply IZR_le in H. apply IZR_le in H2. apply Rabs_le. lra.
Qed.

(** One tick. *)
Definition fpos (c : ctrl sf) : R := IZR (nth i (c_pos c) 0%Z).
Lemma tick_fin (c : ctrl sf) mm r B x0 : (i < 3)%nat -> length (c_pos c) = 3%nat -> float32 mm r -> Rabs (r * k) <= B -> B <= 1048576 ->
  Rabs (x0 - fpos c) <= 55/100 + slack B -> Rabs (r * k - x0) <= 1 ->
  exists d c', c_decide A M c i mm = Ok d /\ c_trackAxis A M c i mm = Ok c' /\ length (c_pos c') = 3%nat /\
    nth i (c_pos c') 0%Z = (nth i (c_pos c) 0 + zdir d)%Z /\ Rabs (r * k - fpos c') <= 55/100 + slack B /\
    match d with Some Fwd => fpos c + 55/100 - slack B <= r * k | Some Bwd => r * k <= fpos c - 55/100 + slack B | None => Rabs (r * k - fpos c) <= 55/100 + slack B end.
Proof.
  intros Hi HL F L LB H0 H1. assert (SB : slack B <= 13/100) by (unfold slack; lra).
  assert (S0 : 0 <= slack B). { pose proof (Rabs_pos (r * k)). unfold slack. lra. }
  assert (PB : Rabs (fpos c) <= 1048579).
  { apply Rabs_le_inv in H0. apply Rabs_le_inv in H1. apply Rabs_le_inv in L. apply Rabs_le. lra. }
  assert (PZ : (Z.abs (nth i (c_pos c) 0) <= 1048579)%Z). { apply le_IZR. rewrite abs_IZR. exact PB. }
  destruct (decide_fdec c mm r B) as (u & v & N & E); auto; [lia|]. pose proof (fdec_spec (nth i (c_pos c) 0%Z) u v B _ N) as S.
  set (d := fdec (nth i (c_pos c) 0%Z) u v) in *. exists d. unfold c_trackAxis. rewrite E. cbn [rbind]. unfold fpos in *.
  apply Rabs_le_inv in H0. apply Rabs_le_inv in H1.
  destruct d as [d|].
  - unfold c_stepAxis. assert (int32_ok (nth i (c_pos c) 0 + match d with Fwd => 1 | Bwd => -1 end)%Z = true) as ->.
    { apply andb_true_intro. split; apply Z.leb_le; destruct d; lia. }
    eexists. split; [reflexivity|]. split; [reflexivity|]. cbn [c_with_pos c_pos c_with_sig]. rewrite upd_length, nth_upd_eq by lia.
    split; [exact HL|]. split; [destruct d; reflexivity|]. rewrite plus_IZR. split; [|exact S]. apply Rabs_le. destruct d; lra.
  - exists c. split; [reflexivity|]. split; [reflexivity|]. split; [exact HL|]. cbn [zdir]. split; [lia|]. split; auto.
Qed.

Lemma last_cons (x : R) r x0 : last (x :: r) x0 = last r x.
Proof. revert x x0. induction r as [|y r IH]; intros; [reflexivity|]. change (last (x :: y :: r) x0) with (last (y :: r) x0). rewrite !IH. auto. Qed.

Lemma track_fin B : (i < 3)%nat -> B <= 1048576 -> forall mms xs x0 (c : ctrl sf), length (c_pos c) = 3%nat -> stands k B mms xs ->
  Rabs (x0 - fpos c) <= 55/100 + slack B -> rate_le 1 x0 xs ->
  exists c' cmds, track A M c i mms = Ok (c', cmds) /\ Rabs (last xs x0 - fpos c') <= 55/100 + slack B /\ length (c_pos c') = 3%nat.
Proof.
  intros Hi LB mms. induction mms as [|mm mms IH]; intros xs x0 c HL ST H0 HR; inversion ST as [|? x ? r P Q]; subst.
  - exists c, []. auto.
  - destruct P as ((q & FQ & ->) & LQ). destruct HR as (HR1 & HR2).
    destruct (tick_fin c mm q B x0) as (d & c1 & E1 & E2 & L1 & _ & N1 & _); auto.
    destruct (IH r (q * k) c1 L1 Q N1 HR2) as (c2 & l & E3 & N2 & L2).
    exists c2, (d :: l). split; [|split; [rewrite last_cons; exact N2|exact L2]]. cbn [track]. rewrite E1. cbn [rbind]. rewrite E2. cbn [rbind]. rewrite E3. reflexivity.
Qed.

(** No forward and backward step within a window narrower than twice the hysteresis. *)
Lemma quiet_fin B lo : (i < 3)%nat -> B <= 1048576 -> forall mms xs x0 (c c' : ctrl sf) cmds, length (c_pos c) = 3%nat -> stands k B mms xs ->
  Rabs (x0 - fpos c) <= 55/100 + slack B -> (forall x, In x (x0 :: xs) -> lo <= x < lo + 1/10 - 2 * slack B) ->
  track A M c i mms = Ok (c', cmds) ->
  ~ (In (Some Fwd) cmds /\ In (Some Bwd) cmds) /\ (lo <= fpos c + 45/100 + slack B -> ~ In (Some Fwd) cmds) /\ (fpos c - 45/100 - slack B < lo + 1/10 - 2 * slack B -> ~ In (Some Bwd) cmds).
Proof.
  intros Hi LB mms. induction mms as [|mm mms IH]; intros xs x0 c c' cmds HL ST H0 HW T; inversion ST as [|? x ? r P Q]; subst.
  - cbn [track] in T. inversion T; subst. repeat split; intros; intro; tauto.
  - destruct P as ((q & FQ & ->) & LQ).
    assert (SB : slack B <= 13/100) by (unfold slack; lra). assert (S0 : 0 <= slack B). { pose proof (Rabs_pos (q * k)). unfold slack. lra. }
    assert (W0 : lo <= x0 < lo + 1/10 - 2 * slack B) by (apply HW; left; auto).
    assert (W1 : lo <= q * k < lo + 1/10 - 2 * slack B) by (apply HW; right; left; auto).
    destruct (tick_fin c mm q B x0) as (d & c1 & E1 & E2 & L1 & P1 & N1 & D1); auto. { apply Rabs_le. lra. }
    cbn [track] in T. rewrite E1 in T. cbn [rbind] in T. rewrite E2 in T. cbn [rbind] in T.
    destruct (track A M c1 i mms) as [[c2 l]|] eqn:E3; [|discriminate]. cbn [rbind] in T. inversion T; subst.
    destruct (IH r (q * k) c1 c' l L1 Q N1) as (I1 & I2 & I3); auto. { intros y Y. apply HW. right. exact Y. }
    assert (FP : fpos c1 = fpos c + IZR (zdir d)). { unfold fpos. rewrite P1, plus_IZR. reflexivity. }
    destruct d as [[]|]; cbn [zdir] in FP; rewrite FP in *.
    + assert (~ In (Some Bwd) l) by (apply I3; lra). split; [intros (_ & [J|J]); [discriminate|tauto]|]. split; [intro; lra|]. intros _ [J|J]; [discriminate|tauto].
    + assert (~ In (Some Fwd) l) by (apply I2; lra). split; [intros ([J|J] & _); [discriminate|tauto]|]. split; [|intro; lra]. intros _ [J|J]; [discriminate|tauto].
    + split; [intros ([J|J] & [J'|J']); try discriminate; tauto|]. split; intros G [J|J]; try discriminate; revert J; [apply I2|apply I3]; lra.
Qed.
(** Steps of one axis are never commanded at consecutive ticks when its rate is below half a step
    per tick and changes slowly. *)
Lemma spaced_fin B : (i < 3)%nat -> B <= 1048576 -> forall mms xs x0 (c c' : ctrl sf) cmds, length (c_pos c) = 3%nat -> stands k B mms xs ->
  Rabs (x0 - fpos c) <= 55/100 + slack B -> rate_lt (1/2 - slack B) x0 xs -> smooth (1/10 - 4 * slack B) x0 xs ->
  track A M c i mms = Ok (c', cmds) -> spaced cmds.
Proof.
  intros Hi LB mms. induction mms as [|mm mms IH]; intros xs x0 c c' cmds HL ST H0 HR HS T; inversion ST as [|? x ? r P Q]; subst.
  - cbn [track] in T. inversion T; subst. exact I.
  - destruct P as ((q & FQ & ->) & LQ).
    assert (SB : slack B <= 13/100) by (unfold slack; lra). assert (S0 : 0 <= slack B). { pose proof (Rabs_pos (q * k)). unfold slack. lra. }
    cbn [rate_lt] in HR. destruct HR as (R1 & HR).
    destruct (tick_fin c mm q B x0) as (d & c1 & E1 & E2 & L1 & P1 & N1 & D1); auto. { apply Rlt_le. eapply Rlt_trans; [exact R1|]. lra. }
    assert (FP : fpos c1 = fpos c + IZR (zdir d)) by (unfold fpos; rewrite P1, plus_IZR; reflexivity).
    cbn [track] in T. rewrite E1 in T. cbn [rbind] in T. rewrite E2 in T. cbn [rbind] in T.
    destruct (track A M c1 i mms) as [[c2 l]|] eqn:E3; [|discriminate]. cbn [rbind] in T. inversion T; subst.
    assert (SL : spaced l). { apply (IH r (q * k) c1 c' l); auto. destruct r as [|x2 r]; [exact I|]. cbn [smooth] in HS. apply HS. }
    destruct mms as [|mm2 mms]; inversion Q as [|? x2 ? r2 P2 Q2]; subst.
    + cbn [track] in E3. inversion E3; subst. exact I.
    + destruct P2 as ((q2 & FQ2 & ->) & LQ2). cbn [rate_lt] in HR. destruct HR as (R2 & _). cbn [smooth] in HS. destruct HS as (S1 & _).
      destruct (tick_fin c1 mm2 q2 B (q * k)) as (d2 & c3 & E4 & E5 & _ & _ & _ & D2); auto. { apply Rlt_le. eapply Rlt_trans; [exact R2|]. lra. }
      cbn [track] in E3. rewrite E4 in E3. cbn [rbind] in E3. rewrite E5 in E3. cbn [rbind] in E3.
      destruct (track A M c3 i mms) as [[c4 l2]|]; [|discriminate]. cbn [rbind] in E3. inversion E3; subst.
      split; [|exact SL]. intros (I1 & I2). apply Rabs_le_inv in H0. apply Rabs_def2 in R1. apply Rabs_def2 in R2. apply Rabs_def2 in S1.
      destruct d as [[]|]; [| |discriminate]; (destruct d2 as [[]|]; [| |discriminate]); cbn [zdir] in FP; rewrite FP in D2; lra.
Qed.
Lemma excl_fin (c : ctrl sf) mm r B : float32 mm r -> Rabs (r * k) <= B -> B <= 262144 -> (Z.abs (nth i (c_pos c) 0) <= 2000000)%Z ->
  needStepForward A M c i mm = Ok true -> needStepBackward A M c i mm = false.
Proof.
  intros F L LB PB H. destruct (decide_fin c mm r B) as (u & v & (N1 & N2) & E1 & E2); auto; [lra|]. rewrite E1 in H. inversion H as [H1]. rewrite E2.
  apply Rabs_le_inv in N1. apply Rabs_le_inv in N2. unfold slack in *. apply Z.ltb_lt in H1. apply Z.ltb_ge.
  assert (IZR u < IZR v + 1) by lra. rewrite <- plus_IZR in H0. apply lt_IZR in H0. lia.
Qed.
End Decide.

Lemma clock_stalls X : let A := sf_arith X in exists s n,
  fresh s (tickWidth A) (nofZ (aF A) 0) /\ (n < 16000000)%N /\ st_time (ticked A (n + 1) s) = st_time (ticked A n s).
Proof.
  set (A := sf_arith X). cbv zeta. assert (FR : fresh (c_st (c_init A 375 (tickWidth A))) (tickWidth A) (nofZ (aF A) 0)) by (repeat split).
  exists (c_st (c_init A 375 (tickWidth A))), 15360001%N. split; [exact FR|]. split; [reflexivity|].
  assert (L0 : (0 < 15360001 < 2 ^ 32)%N) by (split; reflexivity). assert (L1 : (0 < 15360001 + 1 < 2 ^ 32)%N) by (split; reflexivity).
  pose proof (ticked_form _ _ A _ _ _ _ FR L0) as E0. pose proof (ticked_form _ _ A _ _ _ _ FR L1) as E1.
  apply (f_equal (@st_time _)) in E0. apply (f_equal (@st_time _)) in E1. refine (eq_trans E1 (eq_trans _ (eq_sym E0))).
  cbn [st_time]. vm_compute. reflexivity.
Qed.
Lemma f32 x r : valid_binary 24 128 x = true -> (match x with S754_zero _ => 0 | S754_finite s m e => (if s then -1 else 1) * IZR (Z.pos m) * bpow radix2 e | _ => r + 1 end) = r -> float32 x r.
Proof. intros V E. split; auto. destruct x; cbn [sf_val]; try (f_equal; auto); try (exfalso; lra). rewrite <- bpow_val. auto. Qed.
Lemma tick_value X : tickWidth (sf_arith X) = S754_finite false 9162597 (-39).
Proof. vm_compute. reflexivity. Qed.
Lemma clock_example X : let A := sf_arith X in let s := c_st (c_init A 375 (tickWidth A)) in
  float32 (tickWidth A) (9162597 / 549755813888) /\ float32 (nofZ (aF A) 0) 0 /\ / 1048576 <= 9162597 / 549755813888 <= 1 /\
  fresh s (tickWidth A) (nofZ (aF A) 0).
Proof.
  cbv zeta. split; [|split; [split; reflexivity|split; [lra|repeat split]]]. rewrite tick_value. apply f32; [reflexivity|].
  change (bpow radix2 (-39)) with (/ 549755813888). lra.
Qed.
Lemma track_example X : let A := sf_arith X in let M := cnc3axis A in
  let c := c_init A 375 (tickWidth A) in let mms := [S754_finite false 8388608 (-31); S754_finite false 12582912 (-31)] in
  float32 (nthF A (m_stepsPerMm M) 0) 200 /\ length (c_pos c) = 3%nat /\ stands 200 262144 mms [200 * / 256; 300 * / 256] /\
  Rabs (0 - IZR (nth 0 (c_pos c) 0%Z)) <= 55/100 + slack 262144 /\ rate_le 1 0 [200 * / 256; 300 * / 256] /\
  exists c', track A M c 0 mms = Ok (c', [Some Fwd; None]).
Proof.
  cbv zeta. split.
  { assert (E : nthF (sf_arith X) (m_stepsPerMm (cnc3axis (sf_arith X))) 0 = S754_finite false 13107200 (-16)) by reflexivity. rewrite E. apply f32; [reflexivity|].
    change (bpow radix2 (-16)) with (/ 65536). lra. }
  split; [reflexivity|]. split.
  { unfold stands. constructor; [|constructor; [|constructor]]; (split; [eexists; split; [apply f32; reflexivity|]|]); change (bpow radix2 (-31)) with (/ 2147483648); try (apply Rabs_le; lra); lra. }
  split. { cbn [c_pos c_init nth map axes]. unfold slack. apply Rabs_le. lra. }
  split. { cbn [rate_le]. repeat split; apply Rabs_le; lra. }
  eexists. vm_compute. reflexivity.
Qed.
Lemma spacing_example : stands 200 4096 [S754_finite false 8388608 (-32); S754_finite false 12582912 (-32); S754_finite false 8388608 (-31)] [200 * / 512; 300 * / 512; 400 * / 512] /\
  rate_lt (1/2 - slack 4096) 0.25 [200 * / 512; 300 * / 512; 400 * / 512] /\ smooth (1/10 - 4 * slack 4096) 0.25 [200 * / 512; 300 * / 512; 400 * / 512].
Proof.
  split.
  { unfold stands. constructor; [|constructor; [|constructor; [|constructor]]]; (split; [eexists; split; [apply f32; reflexivity|]|]); change (bpow radix2 (-31)) with (/ 2147483648); change (bpow radix2 (-32)) with (/ 4294967296); try (apply Rabs_le; lra); lra. }
  unfold slack. cbn [rate_lt smooth]. repeat split; apply Rabs_def1; lra.
Qed.
