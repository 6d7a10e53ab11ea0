(** binary32: the limits of a motion. *)
Require Import List Arith NArith ZArith Bool Reals Lra Lia ZifyBool ZifyNat ZifyN.
From Coq Require Import Floats.SpecFloat.
From Flocq Require Import Zaux Raux Defs Generic_fmt FLT Float_prop Round_NE Ulp Round_pred Relative Plus_error BinarySingleNaN.
From Verif Require Import Base BaseProofs Num NumR NumSF MotionModel CtrlModel CtrlSpec ProfileSpec GeomSpec RunSpec.
From Verif Require Import FloatSpec FloatRunSpec FloatProofs FloatClockProofs FloatTrackProofs FloatErrProofs FloatPlanProofs FloatJobProofs.
Import ListNotations.
Open Scope R_scope.

(** A float that is finite or +infinity ([None]). *)
Definition elow (x : sf) (e : option R) : Prop := match e with None => x = S754_infinity false | Some r => fin32 x r end.
Definition emin (e f : option R) : option R :=
  match e, f with
  | Some r, Some s => Some (if Rlt_bool r s then r else s)
  | Some r, None => Some r
  | None, f => f
  end.
Lemma fin_not x r : fin32 x r -> SFltb x (S754_infinity false) = true /\ SFltb (S754_infinity false) x = false.
Proof. intros F. pose proof (fin_value _ _ _ _ F) as V. destruct x as [[]|[]| |[] ? ?]; try contradiction; split; reflexivity. Qed.
Lemma elow_min x y e f : elow x e -> elow y f -> elow (if SFltb x y then x else y) (emin e f).
Proof.
  intros H1 H2. destruct e as [r|], f as [s|]; cbn [elow emin] in *; subst.
  - rewrite (fin_ltb _ _ _ _ _ _ H1 H2). destruct (Rlt_bool r s); auto.
  - rewrite (proj1 (fin_not _ _ H1)). auto.
  - rewrite (proj2 (fin_not _ _ H2)). auto.
  - reflexivity.
Qed.
(** The same for decelerations, which are negative. *)
Definition edn (x : sf) (e : option R) : Prop := match e with None => x = S754_infinity true | Some r => fin32 x (- r) /\ 0 <= r <= 2 * highest end.
Definition nonneg (e : option R) : Prop := match e with None => True | Some r => 0 <= r <= 2 * highest end.
Lemma edn_abs x e : edn x e -> elow (SFabs x) e.
Proof.
  destruct e as [r|]; cbn [edn elow].
  - intros (F & R0). pose proof (fin_abs _ _ _ _ F) as FA. rewrite Rabs_Ropp, Rabs_pos_eq in FA by lra. exact FA.
  - intros ->. reflexivity.
Qed.
Lemma edn_min X x y e f : elow x e -> nonneg e -> edn y f ->
  edn (if SFltb x (SFabs y) then nmul (aF (sf_arith X)) (nofZ (aF (sf_arith X)) (-1)) x else y) (emin e f).
Proof.
  intros H1 R1 H2. pose proof (edn_abs _ _ H2) as HA.
  assert (MU : forall r, fin32 x r -> 0 <= r <= 2 * highest -> edn (nmul (aF (sf_arith X)) (nofZ (aF (sf_arith X)) (-1)) x) (Some r)).
  { intros r F R0. split; auto. assert (E : - r = rnd (-1 * r)). { replace (-1 * r) with (- r) by ring. symmetry. apply rnd_id. apply generic_format_opp. eapply fin_format. exact F. }
    rewrite E. refine (fin_mul _ _ prec24 max24 _ _ _ _ _ F _); [apply (fin_lit X (-1)); lia|]. apply small_huge. replace (-1 * r) with (- r) by ring. rewrite Rabs_Ropp, Rabs_pos_eq; lra. }
  destruct e as [r|], f as [s|]; cbn [elow emin nonneg] in *; subst.
  - rewrite (fin_ltb _ _ _ _ _ _ H1 HA). destruct (Rlt_bool r s); auto.
  - cbn [edn] in H2. subst y. cbn [SFabs]. rewrite (proj1 (fin_not _ _ H1)). auto.
  - rewrite (proj2 (fin_not _ _ HA)). auto.
  - cbn [edn] in H2. subst y. reflexivity.
Qed.
Lemma emin_nonneg e f : nonneg e -> nonneg f -> nonneg (emin e f).
Proof. destruct e, f; cbn; auto. destruct (Rlt_bool r r0); auto. Qed.
Lemma emin_some e f r : emin e f = Some r -> (e = Some r \/ f = Some r) /\ (forall s, e = Some s -> r <= s) /\ (forall s, f = Some s -> r <= s).
Proof.
  destruct e as [p|], f as [q|]; cbn [emin]; try discriminate; intro H; injection H as H.
  - pose proof (Rlt_bool_spec p q) as B. destruct B; subst r; repeat split; auto; intros s HS; injection HS as <-; lra.
  - subst. repeat split; auto; intros s HS; [injection HS as <-; lra|discriminate].
  - subst. repeat split; auto; intros s HS; [discriminate|injection HS as <-; lra].
Qed.
Lemma emin_none e f : emin e f = None -> e = None /\ f = None.
Proof. destruct e, f; cbn; try discriminate; auto. Qed.
Lemma emin_assoc e f g : emin (emin e f) g = emin e (emin f g).
Proof.
  destruct e as [x|], f as [y|], g as [z|]; cbn [emin]; auto.
  - pose proof (Rlt_bool_spec x y) as B1. pose proof (Rlt_bool_spec y z) as B2. pose proof (Rlt_bool_spec x z) as B3.
    destruct B1, B2; cbn [emin]; destruct B3; try (exfalso; lra); repeat match goal with |- context [Rlt_bool ?a ?b] => destruct (Rlt_bool_spec a b) end; f_equal; lra.
Qed.
(** The least of three. *)
Definition emin3 (g : nat -> option R) : option R := emin (g 2%nat) (emin (g 1%nat) (emin (g 0%nat) None)).
Lemma emin3_some g r : emin3 g = Some r -> (exists i, (i < 3)%nat /\ g i = Some r) /\ forall i s, (i < 3)%nat -> g i = Some s -> r <= s.
Proof.
  intro E. apply emin_some in E. destruct E as (E & L2 & M1). destruct (emin (g 1%nat) (emin (g 0%nat) None)) as [s1|] eqn:E1.
  - specialize (M1 s1 eq_refl). apply emin_some in E1. destruct E1 as (E1 & L1 & M0). destruct (emin (g 0%nat) None) as [s0|] eqn:E0.
    + specialize (M0 s0 eq_refl). apply emin_some in E0. destruct E0 as ([E0|E0] & L0 & _); [|discriminate]. split.
      * destruct E as [E|E]; [exists 2%nat; auto|]. injection E as <-. destruct E1 as [E1|E1]; [exists 1%nat; auto|]. injection E1 as <-. exists 0%nat; auto.
      * intros [|[|[|i]]] s Hi H; try lia; [specialize (L0 _ H)|specialize (L1 _ H)|specialize (L2 _ H)]; lra.
    + apply emin_none in E0. destruct E0 as (G0 & _). split.
      * destruct E as [E|E]; [exists 2%nat; auto|]. injection E as <-. destruct E1 as [E1|E1]; [exists 1%nat; auto|discriminate].
      * intros [|[|[|i]]] s Hi H; try lia; [congruence|specialize (L1 _ H)|specialize (L2 _ H)]; lra.
  - apply emin_none in E1. destruct E1 as (G1 & E0). apply emin_none in E0. destruct E0 as (G0 & _). split.
    + destruct E as [E|E]; [exists 2%nat; auto|discriminate].
    + intros [|[|[|i]]] s Hi H; try lia; [congruence..|]. specialize (L2 _ H). lra.
Qed.
Lemma emin3_none g : emin3 g = None -> forall i, (i < 3)%nat -> g i = None.
Proof. intro E. apply emin_none in E. destruct E as (G2 & E). apply emin_none in E. destruct E as (G1 & E). apply emin_none in E. destruct E as (G0 & _). intros [|[|[|i]]] Hi; auto; lia. Qed.

(** *** A component of the direction, and a limit divided by it. *)
Lemma dir_ratio x y d len : float64 x d -> float64 y len -> / 8192 <= len <= 500000 -> Rabs d <= len -> d = 0 \/ len <= 1000000000000000000000000 * Rabs d ->
  exists v, fin32 (sf_cvt 24 128 (SFdiv 53 1024 x y)) v /\ (d = 0 -> v = 0) /\
    (d <> 0 -> / 1000000000000000000000000 <= Rabs d / len <= 1 /\ Rabs (Rabs v - Rabs d / len) <= / 500000 * (Rabs d / len)).
Proof.
  intros FD FL LB DB DN. set (q := d / len).
  assert (AQ : Rabs q = Rabs d / len). { unfold q, Rdiv. rewrite Rabs_mult, (Rabs_pos_eq (/ len)); auto. left; apply Rinv_0_lt_compat; lra. }
  assert (QB : Rabs q <= 1). { rewrite AQ. apply (Rmult_le_reg_r len); [lra|]. unfold Rdiv. rewrite Rmult_assoc, Rinv_l by lra. lra. }
  assert (F : fin64 (SFdiv 53 1024 x y) (rnd53 q)).
  { apply (fin_div _ _ prec53 max53); [apply fin_float64; auto|apply fin_float64; auto|lra|]. apply small53. unfold q in QB. lra. }
  pose proof (rnd53_err q) as E1. 
  assert (Q1 : Rabs (rnd53 q) <= 1.001). { apply Rabs_le_inv in E1. unfold eta in E1. apply Rabs_le_inv in QB as QB'. apply Rabs_le. lra. }
  exists (rnd (rnd53 q)). split; [apply cvt_fin; auto; lra|]. split.
  - intro Z. unfold q. rewrite Z. unfold Rdiv. rewrite Rmult_0_l, round_0, rnd_0 by apply valid_rnd_N. reflexivity.
  - intro NZ. destruct DN as [DN|DN]; [contradiction|]. rewrite <- AQ.
    assert (QL : / 1000000000000000000000000 <= Rabs q).
    { rewrite AQ. apply (Rmult_le_reg_r len); [lra|]. unfold Rdiv. rewrite Rmult_assoc, Rinv_l by lra. lra. }
    split; [lra|]. set (q1 := rnd53 q) in *. pose proof (rnd_err q1) as E2. set (v := rnd q1) in *.
    pose proof (Rabs_triang_inv2 v q1) as T1. pose proof (Rabs_triang_inv2 q1 q) as T2. apply Rabs_le_inv in T1. apply Rabs_le_inv in T2.
    apply Rabs_le. unfold eps, eta in *. lra.
Qed.
Lemma dir_rel X m dl len i : straight_by X m dl len -> (i < 3)%nat ->
  exists v, fin32 (nthF (sf_arith X) (t_dir (traj_set (sf_arith X) m)) i) v /\ (dl i = 0 -> v = 0) /\
    (dl i <> 0 -> / 1000000000000000000000000 <= Rabs (dl i) / len <= 1 /\ Rabs (Rabs v - Rabs (dl i) / len) <= / 500000 * (Rabs (dl i) / len)).
Proof.
  intros S Hi. destruct (sb_length _ _ _ _ S) as (FL & LB). destruct (sb_delta _ _ _ _ S i Hi) as (FD & DB & DN). destruct (sb_line _ _ _ _ S) as (A0 & A1).
  assert (E : nthF (sf_arith X) (t_dir (traj_set (sf_arith X) m)) i = sf_cvt 24 128 (SFdiv 53 1024 (nthD (sf_arith X) (sm_delta m) i) (sm_length m))).
  { unfold traj_set. cbn [t_dir]. rewrite A0, A1. destruct i as [|[|[|i]]]; [reflexivity..|lia]. }
  rewrite E. now apply dir_ratio.
Qed.
Lemma quot_rel c q v : moderate c -> / 1000000000000000000000000 <= q <= 1 -> Rabs (Rabs v - q) <= / 500000 * q ->
  Rabs (c / v) <= highest /\ Rabs (rnd (c / v)) <= 2 * highest /\ Rabs (Rabs (rnd (c / v)) * q - c) <= / 250000 * c.
Proof.
  unfold moderate. intros C Q V. apply Rabs_le_inv in V. set (w := Rabs v) in *.
  assert (W0 : 0 < w) by lra. assert (AY : Rabs (c / v) = c / w). { unfold Rdiv, w. rewrite Rabs_mult, Rabs_inv, (Rabs_pos_eq c) by lra. reflexivity. }
  pose proof (rnd_err (c / v)) as E. set (R := rnd (c / v)) in *. pose proof (Rabs_triang_inv2 R (c / v)) as T. apply Rabs_le_inv in T. rewrite AY in *.
  set (y := c / w) in *. assert (YW : y * w = c) by (unfold y; field; lra).
  assert (Y0 : 0 < y) by (apply Rdiv_lt_0_compat; lra).
  assert (YL : c <= 1.0001 * y). { rewrite <- YW, (Rmult_comm 1.0001). apply Rmult_le_compat_l; lra. }
  assert (YU : y <= 600000000000000000000000000000).
  { assert (y * (99/100 * / 1000000000000000000000000) <= y * w) by (apply Rmult_le_compat_l; lra). lra. }
  assert (YQ : y * q * (1 - / 500000) <= c <= y * q * (1 + / 500000)).
  { rewrite <- YW, !Rmult_assoc. split; apply Rmult_le_compat_l; lra. }
  assert (0 <= y * q) by (apply Rmult_le_pos; lra).
  assert (RY : y * (1 - 101/100 * eps) <= Rabs R <= y * (1 + 101/100 * eps)) by (unfold eps, eta in *; lra).
  assert (RQ : y * q * (1 - 101/100 * eps) <= Rabs R * q <= y * q * (1 + 101/100 * eps)).
  { replace (y * q * (1 - 101/100 * eps)) with (y * (1 - 101/100 * eps) * q) by ring. replace (y * q * (1 + 101/100 * eps)) with (y * (1 + 101/100 * eps) * q) by ring.
    split; apply Rmult_le_compat_r; lra. }
  split; [unfold highest; lra|]. split; [unfold highest, eps in *; lra|]. apply Rabs_le. unfold eps in *. lra.
Qed.

Lemma fin_is0 u : fin32 u 0 -> exists s, u = S754_zero s.
Proof.
  intros F. pose proof (fin_value _ _ _ _ F) as V. destruct u as [s|s| |s m e]; try contradiction; [eauto|exfalso].
  assert (0 < bpow radix2 e) by apply bpow_gt_0. assert (0 < IZR (Z.pos m)) by (apply IZR_lt; lia).
  assert (0 < IZR (Z.pos m) * bpow radix2 e) by (apply Rmult_lt_0_compat; auto).
  destruct s; unfold SpecFloat.cond_Zopp in V; [rewrite opp_IZR in V|]; lra.
Qed.
Lemma fin_not0 x c : fin32 x c -> c <> 0 -> exists s m e, x = S754_finite s m e.
Proof. intros F NZ. pose proof (fin_value _ _ _ _ F) as V. destruct x as [s|s| |s m e]; try contradiction; eauto. Qed.

Section Limits.
Variables (X : sf_funs) (M : machine sf) (m : smotion sf) (dl : nat -> R) (len : R) (a d v : nat -> R) (j : R).
Notation A := (sf_arith X).
Notation K := (aF A).
Hypothesis AL : axis_limits X M a d v j.
Notation t := (traj_set A m).
Hypothesis LB : / 8192 <= len <= 500000.
Hypothesis SOME : exists i, (i < 3)%nat /\ len <= 2 * Rabs (dl i).
(** The speed at which the axes of an arc are at their acceleration. *)
Variable cen : nat -> option R.
Definition cen_ok : Prop := forall i, (i < 3)%nat ->
  if is_arc (t_arc0 t) (t_arc1 t) i then exists r, cen i = Some r /\ fin32 (nsqrt K (nmul K (nthF A (m_aMax M) i) (t_radius t))) r else cen i = None.
Hypothesis CEN : cen_ok.

Definition lim (vd c : nat -> R) (i : nat) : option R := if Req_EM_T (dl i) 0 then None else Some (Rabs (rnd (c i / vd i))).
Definition dirs (vd : nat -> R) : Prop := forall i, (i < 3)%nat -> fin32 (nthF A (t_dir t) i) (vd i) /\ (dl i = 0 -> vd i = 0) /\
    (dl i <> 0 -> / 1000000000000000000000000 <= Rabs (dl i) / len <= 1 /\ Rabs (Rabs (vd i) - Rabs (dl i) / len) <= / 500000 * (Rabs (dl i) / len)).
Lemma lim_low vd c x s i : dirs vd -> (i < 3)%nat -> moderate (c i) -> (s = 1 \/ s = -1) -> fin32 x (s * c i) ->
  elow (SFabs (SFdiv 24 128 x (nthF A (t_dir t) i))) (lim vd c i) /\ nonneg (lim vd c i).
Proof.
  intros D Hi C S F. destruct (D i Hi) as (FU & Z & NZ). unfold moderate in C. unfold lim. destruct (Req_EM_T (dl i) 0) as [E|E].
  - rewrite (Z E) in FU. destruct (fin_is0 _ FU) as (s1 & ->). destruct (fin_not0 x _ F) as (s2 & mm & e & ->). { destruct S; subst s; lra. } split; [reflexivity|exact I].
  - destruct (NZ E) as (Q1 & Q2). destruct (quot_rel (c i) _ (vd i) C Q1 Q2) as (B1 & B2 & _).
    assert (V0 : vd i <> 0). { intro V0. rewrite V0, Rabs_R0 in Q2. apply Rabs_le_inv in Q2. lra. }
    assert (EQ : Rabs (rnd (s * c i / vd i)) = Rabs (rnd (c i / vd i))).
    { destruct S as [-> | ->]; [now rewrite Rmult_1_l|]. replace (-1 * c i / vd i) with (- (c i / vd i)) by (field; auto). rewrite round_NE_opp, Rabs_Ropp. reflexivity. }
    split; [|cbn; split; [apply Rabs_pos|exact B2]]. cbn [elow]. rewrite <- EQ. apply fin_abs. apply (fin_div _ _ prec24 max24); auto.
    apply small_huge. destruct S as [-> | ->]; [rewrite Rmult_1_l; unfold highest in *; lra|]. replace (-1 * c i / vd i) with (- (c i / vd i)) by (field; auto). rewrite Rabs_Ropp. unfold highest in *; lra.
Qed.
Definition limv (vd : nat -> R) (i : nat) : option R := emin (lim vd v i) (cen i).
Lemma limit_step vd l i ev ea ed : dirs vd -> (i < 3)%nat -> elow (fst (fst l)) ev -> elow (snd (fst l)) ea -> edn (snd l) ed ->
  let l' := limit_axis A M t l i in elow (fst (fst l')) (emin (limv vd i) ev) /\ elow (snd (fst l')) (emin (lim vd a i) ea) /\ edn (snd l') (emin (lim vd d i) ed).
Proof.
  intros D Hi H1 H2 H3. destruct l as ((lv & la) & ld). cbn [fst snd] in *. cbv zeta. unfold limit_axis.
  set (centri := nsqrt K _). set (vc := if _ && _ then centri else lv).
  assert (HC : elow vc (emin (cen i) ev)).
  { pose proof (CEN i Hi) as C. unfold vc. destruct (is_arc (t_arc0 t) (t_arc1 t) i); cbn [andb].
    - destruct C as (r & -> & C). exact (elow_min centri lv (Some r) ev C H1).
    - rewrite C. exact H1. }
  unfold limv. rewrite emin_assoc. clearbody vc. cbn [fst snd].
  destruct (al_a _ _ _ _ _ _ AL i Hi) as (Fa & Ma). destruct (al_d _ _ _ _ _ _ AL i Hi) as (Fd & Md). destruct (al_v _ _ _ _ _ _ AL i Hi) as (Fv & Mv). apply fin_float32 in Fa, Fd, Fv.
  destruct (lim_low vd v (nthF A (m_vMax M) i) 1 i D Hi Mv (or_introl eq_refl)) as (Lv & _); [now rewrite Rmult_1_l|].
  destruct (lim_low vd a (nthF A (m_aMax M) i) 1 i D Hi Ma (or_introl eq_refl)) as (La & _); [now rewrite Rmult_1_l|].
  destruct (lim_low vd d (nthF A (m_dMax M) i) (-1) i D Hi Md (or_intror eq_refl)) as (Ld & Nd); [now replace (-1 * d i) with (- d i) by ring|].
  split; [exact (elow_min _ _ _ _ Lv HC)|]. split; [exact (elow_min _ _ _ _ La H2)|]. exact (edn_min X _ _ _ _ Ld Nd H3).
Qed.
Lemma limits_low vd : dirs vd -> let l := limits A M t in elow (fst (fst l)) (emin3 (limv vd)) /\ elow (snd (fst l)) (emin3 (lim vd a)) /\ edn (snd l) (emin3 (lim vd d)).
Proof.
  intro D. cbv zeta. unfold limits. cbn [fold_left axes].
  destruct (limit_step vd (ninf K, ninf K, nopp K (ninf K)) 0 None None None D ltac:(lia)) as (V0 & A0 & D0); try reflexivity.
  destruct (limit_step vd _ 1 _ _ _ D ltac:(lia) V0 A0 D0) as (V1 & A1 & D1). exact (limit_step vd _ 2 _ _ _ D ltac:(lia) V1 A1 D1).
Qed.
(** The speed: that of the axes or one at which the acceleration in an arc is reached. *)
Lemma limv_value vd rv : emin3 (lim vd v) = Some rv -> exists r, emin3 (limv vd) = Some r /\ r <= rv /\ (forall i s, (i < 3)%nat -> cen i = Some s -> r <= s) /\
  (r = rv \/ exists i, (i < 3)%nat /\ cen i = Some r).
Proof.
  intro E. apply emin3_some in E. destruct E as ((i0 & Hi0 & G0) & LE). destruct (emin3 (limv vd)) as [r|] eqn:E.
  2:{ exfalso. pose proof (emin3_none _ E i0 Hi0) as N. unfold limv in N. apply emin_none in N. destruct N. congruence. }
  exists r. split; auto. apply emin3_some in E. destruct E as ((i & Hi & G) & LV).
  assert (LC : forall i s, (i < 3)%nat -> lim vd v i = Some s \/ cen i = Some s -> r <= s).
  { intros k s Hk H. destruct (limv vd k) as [z|] eqn:Z.
    - specialize (LV k z Hk Z). unfold limv in Z. apply emin_some in Z. destruct Z as (_ & Z1 & Z2). destruct H as [H|H]; [specialize (Z1 _ H)|specialize (Z2 _ H)]; lra.
    - unfold limv in Z. apply emin_none in Z. destruct Z, H; congruence. }
  pose proof (LC i0 rv Hi0 (or_introl G0)) as B. split; auto. split; [intros; eapply LC; eauto|].
  unfold limv in G. apply emin_some in G. destruct G as ([G|G] & _); [|right; eauto]. left. specialize (LE i r Hi G). lra.
Qed.
(** The least of them, as a number. *)
Lemma lim_value vd c : dirs vd -> (forall i, (i < 3)%nat -> moderate (c i)) -> exists r, emin3 (lim vd c) = Some r /\
  (forall i, (i < 3)%nat -> along dl len r i <= (1 + / 250000) * c i) /\
  (exists i, (i < 3)%nat /\ (1 - / 250000) * c i <= along dl len r i /\ along dl len r i <= r) /\ (exists i, (i < 3)%nat /\ r <= 2 * ((1 + / 250000) * c i)).
Proof.
  intros D C. destruct (emin3 (lim vd c)) as [r|] eqn:E.
  2:{ exfalso. destruct SOME as (i & Hi & L). pose proof (emin3_none _ E i Hi) as N. unfold lim in N.
      destruct (Req_EM_T (dl i) 0) as [Z|]; [|discriminate]. rewrite Z, Rabs_R0 in L. lra. }
  exists r. split; auto. apply emin3_some in E. destruct E as ((i0 & Hi0 & G0) & LE). unfold lim in G0. destruct (Req_EM_T (dl i0) 0) as [|N0]; [discriminate|]. injection G0 as G0.
  assert (R0 : 0 <= r) by (rewrite <- G0; apply Rabs_pos).
  assert (UP : forall i, (i < 3)%nat -> along dl len r i <= (1 + / 250000) * c i).
  { intros i Hi. specialize (C i Hi) as Ci. unfold moderate in Ci. unfold along. destruct (Req_EM_T (dl i) 0) as [Z|NZ].
    - rewrite Z, Rabs_R0. unfold Rdiv. rewrite Rmult_0_l, Rmult_0_r. lra.
    - destruct (D i Hi) as (_ & _ & DD). destruct (DD NZ) as (Q1 & Q2). destruct (quot_rel (c i) _ (vd i) Ci Q1 Q2) as (_ & _ & B). apply Rabs_le_inv in B.
      assert (r <= Rabs (rnd (c i / vd i))). { apply (LE i _ Hi). unfold lim. destruct (Req_EM_T (dl i) 0); [contradiction|reflexivity]. }
      apply Rle_trans with (Rabs (rnd (c i / vd i)) * (Rabs (dl i) / len)); [apply Rmult_le_compat_r; lra|lra]. }
  split; auto. split.
  - exists i0. split; auto. destruct (D i0 Hi0) as (_ & _ & DD). destruct (DD N0) as (Q1 & Q2). destruct (quot_rel (c i0) _ (vd i0) (C i0 Hi0) Q1 Q2) as (_ & _ & B). rewrite G0 in B. apply Rabs_le_inv in B. unfold along. split; [lra|].
    rewrite <- (Rmult_1_r r) at 2. apply Rmult_le_compat_l; lra.
  - destruct SOME as (i & Hi & L). exists i. split; auto. specialize (UP i Hi). unfold along in UP.
    assert (/ 2 <= Rabs (dl i) / len). { apply (Rmult_le_reg_r len); [lra|]. unfold Rdiv. rewrite Rmult_assoc, Rinv_l by lra. lra. }
    assert (r * / 2 <= r * (Rabs (dl i) / len)) by (apply Rmult_le_compat_l; lra). lra.
Qed.
End Limits.

(** *** The feed, and all together. *)
Lemma inf_mul fo o : fin32 fo o -> 0 < o -> SFmul 24 128 (S754_infinity false) fo = S754_infinity false.
Proof.
  intros F O. pose proof (fin_value _ _ _ _ F) as V. destruct fo as [s|s| |s mm e]; try contradiction; [lra|]. destruct s; [exfalso|reflexivity].
  unfold SpecFloat.cond_Zopp in V. rewrite opp_IZR in V. assert (0 < bpow radix2 e) by apply bpow_gt_0. assert (0 < IZR (Z.pos mm)) by (apply IZR_lt; lia).
  assert (0 < IZR (Z.pos mm) * bpow radix2 e) by (apply Rmult_lt_0_compat; auto). lra.
Qed.
Lemma cap_value X m fo f vM r : feed_is m fo f -> fin32 vM r ->
  let feed := nmul (aF (sf_arith X)) (d2f (sf_arith X) (sm_vFeed m)) fo in
  exists c, fin32 (if SFltb vM feed then vM else feed) c /\ c <= r /\ (forall g, f = Some g -> c <= (1 + / 250000) * g) /\ (c = r \/ exists g, f = Some g /\ (1 - / 250000) * g <= c).
Proof.
  intros (o & FO & OB & H) FV. apply fin_float32 in FO. cbv zeta. destruct f as [f|].
  - destruct H as (g & FG & -> & LO & GB). apply fin_float64 in FG.
    assert (GL : / 8192000 <= g). { assert (g * o <= g * 1000) by (apply Rmult_le_compat_l; lra). lra. }
    assert (F1 : fin32 (d2f (sf_arith X) (sm_vFeed m)) (rnd g)). { apply cvt_fin; auto. rewrite Rabs_pos_eq; lra. }
    pose proof (rnd_err g) as E1. rewrite (Rabs_pos_eq g) in E1 by lra. apply Rabs_le_inv in E1. set (g1 := rnd g) in *.
    assert (G1 : (1 - 2 * eps) * g <= g1 <= (1 + 2 * eps) * g) by (unfold eps, eta in *; lra).
    assert (P1 : (1 - 2 * eps) * (g * o) <= g1 * o <= (1 + 2 * eps) * (g * o)). { rewrite <- !Rmult_assoc. split; apply Rmult_le_compat_r; lra. }
    assert (GO : g * o <= 1000000000000). { apply Rle_trans with (1000000000 * 1000); [apply Rmult_le_compat; lra|lra]. }
    assert (P0 : 0 < g1 * o) by (unfold eps in *; lra).
    pose proof (rnd_err (g1 * o)) as E2. rewrite (Rabs_pos_eq (g1 * o)) in E2 by lra. apply Rabs_le_inv in E2.
    assert (F2 : fin32 (nmul (aF (sf_arith X)) (d2f (sf_arith X) (sm_vFeed m)) fo) (rnd (g1 * o))).
    { refine (fin_mul _ _ prec24 max24 _ _ _ _ F1 FO _). apply small_huge. rewrite Rabs_pos_eq by lra. unfold highest, eps in *. lra. }
    rewrite (fin_ltb _ _ _ _ _ _ FV F2). set (p := rnd (g1 * o)) in *. pose proof (Rlt_bool_spec r p) as B.
    assert (PB : (1 - / 250000) * (g * o) <= p <= (1 + / 250000) * (g * o)) by (unfold eps, eta in *; lra).
    destruct B as [B|B].
    + exists r. split; auto. split; [lra|]. split; [intros z Z; injection Z as <-; lra|auto].
    + exists p. split; auto. split; auto. split; [intros z Z; injection Z as <-; lra|]. right. eexists. split; [reflexivity|lra].
  - rewrite H. change (nmul (aF (sf_arith X)) (d2f (sf_arith X) (S754_infinity false)) fo) with (SFmul 24 128 (S754_infinity false) fo). rewrite (inf_mul _ _ FO) by lra.
    rewrite (proj1 (fin_not _ _ FV)). exists r. split; auto. split; [lra|]. split; [discriminate|auto].
Qed.

Lemma square_up x y c : 0 <= x -> 0 <= c -> x <= c * y -> 0 <= y -> x * x <= c * c * (y * y).
Proof. intros. replace (c * c * (y * y)) with ((c * y) * (c * y)) by ring. apply Rmult_le_compat; lra. Qed.
Lemma limits_any X M a d v j m dl len fo f cen vd U V : axis_limits X M a d v j -> dirs X m dl len vd -> float64 (sm_length m) len -> / 8192 <= len <= 500000 ->
  (exists i, (i < 3)%nat /\ len <= 2 * Rabs (dl i)) -> cen_ok X M m cen -> feed_is m fo f ->
  ((forall i, (i < 3)%nat -> 2 * v i <= V) \/ (exists g, f = Some g /\ g <= V)) -> (forall i, (i < 3)%nat -> j * V <= 990 * (a i * a i) /\ j * V <= 990 * (d i * d i)) ->
  0 < U -> (forall i, (i < 3)%nat -> U <= v i) -> (forall g, f = Some g -> U <= g) -> j * (len * len) <= 549755813888 * (U * U * U) ->
  (forall i r, (i < 3)%nat -> cen i = Some r -> (1 - / 250000) * U <= r /\ / 16384 <= r) ->
  exists l, fl_j l = j /\ Rabs (fl_L l - len) <= len / 4194304 /\ limits_kept a d v f dl len l /\ (forall i r, (i < 3)%nat -> cen i = Some r -> fl_vm l <= r) /\
    (exists i, (i < 3)%nat /\ (1 - / 250000) * a i <= along dl len (fl_a l) i) /\
    (exists i, (i < 3)%nat /\ (1 - / 250000) * d i <= along dl len (fl_d l) i) /\
    ((exists i, (i < 3)%nat /\ (1 - / 250000) * v i <= along dl len (fl_vm l) i) \/ (exists g, f = Some g /\ (1 - / 250000) * g <= fl_vm l) \/ (exists i, (i < 3)%nat /\ cen i = Some (fl_vm l))) /\
    standing X (prof_setSpeed (sf_arith X) M (p_zero (aF (sf_arith X))) (traj_set (sf_arith X) m) m) (t_length (traj_set (sf_arith X) m)) fo (fl_a l) (fl_d l) (fl_j l) (fl_vm l) (fl_L l).
Proof.
  intros AL D FL LB SM CE FE TV JV U0 UV UF JU UC.
  pose proof (limits_low X M m dl len a d v j AL cen CE vd D) as LL. cbv zeta in LL.
  assert (Ca : forall i, (i < 3)%nat -> moderate (a i)) by (intros i Hi; apply (al_a _ _ _ _ _ _ AL i Hi)).
  assert (Cd : forall i, (i < 3)%nat -> moderate (d i)) by (intros i Hi; apply (al_d _ _ _ _ _ _ AL i Hi)).
  assert (Cv : forall i, (i < 3)%nat -> moderate (v i)) by (intros i Hi; apply (al_v _ _ _ _ _ _ AL i Hi)).
  destruct (lim_value X m dl len LB SM vd a D Ca) as (ra & Ea & Ka & (ia & Hia & La & Ta) & (ka & Hka & Ba)).
  destruct (lim_value X m dl len LB SM vd d D Cd) as (rd & Ed & Kd & (id & Hid & Ld & Td) & (kd & Hkd & Bd)).
  destruct (lim_value X m dl len LB SM vd v D Cv) as (rv & Ev & Kv & (iv & Hiv & Lv & Tv) & (kv & Hkv & Bv)).
  destruct (limv_value dl v cen vd rv Ev) as (rm & Em & MV & MC & MW).
  rewrite Ea, Ed, Em in LL. unfold prof_setSpeed. destruct (limits (sf_arith X) M (traj_set (sf_arith X) m)) as ((xv & xa) & xd). cbn [fst snd elow edn] in LL. destruct LL as (Fv & Fa & (Fd & _)).
  destruct (cap_value X m fo f xv rm FE Fv) as (c & Fc & C1 & C2 & C3). cbv zeta in Fc.
  assert (FL' : fin32 (t_length (traj_set (sf_arith X) m)) (rnd len)). { apply cvt_fin; [apply fin_float64; auto|]. rewrite Rabs_pos_eq; lra. }
  pose proof (rnd_err len) as EL. rewrite (Rabs_pos_eq len) in EL by lra. apply Rabs_le_inv in EL. set (L := rnd len) in *.
  assert (LE : (1 - / 4194304) * len <= L <= (1 + / 4194304) * len) by (unfold eps, eta in *; lra).
  pose proof (Ca ia Hia) as Mia. pose proof (Cd id Hid) as Mid. pose proof (Cv iv Hiv) as Miv. pose proof (Ca ka Hka) as Mka. pose proof (Cd kd Hkd) as Mkd. pose proof (Cv kv Hkv) as Mkv. unfold moderate in *.
  destruct (al_j _ _ _ _ _ _ AL) as (Fj & Uj). unfold usual in Uj.
  (* the lower and the upper bound of the speed *)
  assert (CL : (1 - / 250000) * U <= c /\ / 16384 <= c).
  { destruct C3 as [C3|(g & G & C3)].
    - subst c. destruct MW as [->|(i & Hi & MW)]; [|exact (UC i rm Hi MW)]. specialize (UV iv Hiv). split; lra.
    - specialize (UF g G) as UG. destruct FE as (o & _ & _ & FE). rewrite G in FE. destruct FE as (g0 & _ & _ & FE & _). split; lra. }
  assert (CV : c <= (1 + / 250000) * V). { destruct TV as [TV|(g & G & TV)]; [specialize (TV kv Hkv); lra|specialize (C2 g G); lra]. }
  assert (V0 : 0 < V) by lra.
  assert (JC : j * c <= (1 + / 250000) * (j * V)). { replace ((1 + / 250000) * (j * V)) with (j * ((1 + / 250000) * V)) by ring. apply Rmult_le_compat_l; lra. }
  destruct (JV ia Hia) as (Ja & _). destruct (JV id Hid) as (_ & Jd).
  exists (mkFL ra rd j c L). cbn [fl_a fl_d fl_j fl_vm fl_L]. split; auto. split; [apply Rabs_le; lra|]. split.
  { split; auto. intros i Hi. split; [auto|]. split; [auto|]. apply Rle_trans with (along dl len rv i); [|auto]. unfold along. apply Rmult_le_compat_r; [|cbn [fl_vm]; lra].
    apply Rmult_le_pos; [apply Rabs_pos|left; apply Rinv_0_lt_compat; lra]. }
  split. { intros i0 rr Hi0 H0. specialize (MC i0 rr Hi0 H0). lra. }
  split; [exists ia; auto|]. split; [exists id; auto|]. split.
  { destruct C3 as [->|C3]; [|right; left; auto]. destruct MW as [->|MW]; [left; exists iv; auto|right; right; auto]. }
  assert (SQa : (1 - / 250000) * (1 - / 250000) * (a ia * a ia) <= ra * ra).
  { replace ((1 - / 250000) * (1 - / 250000) * (a ia * a ia)) with (((1 - / 250000) * a ia) * ((1 - / 250000) * a ia)) by ring. apply Rmult_le_compat; lra. }
  assert (SQd : (1 - / 250000) * (1 - / 250000) * (d id * d id) <= rd * rd).
  { replace ((1 - / 250000) * (1 - / 250000) * (d id * d id)) with (((1 - / 250000) * d id) * ((1 - / 250000) * d id)) by ring. apply Rmult_le_compat; lra. }
  assert (0 < a ia * a ia) by (apply Rmult_lt_0_compat; lra). assert (0 < d id * d id) by (apply Rmult_lt_0_compat; lra).
  constructor; cbn [p_doneLength p_doneDuration p_left p_right p_aMax p_dMax p_jMax p_vMax p_vFeed ad_setvStart ad_setvEnd ad_vStart ad_vEnd].
  - split; reflexivity.
  - split; reflexivity.
  - apply fin_float32; auto.
  - apply fin_float32; auto.
  - auto.
  - apply fin_float32; auto.
  - eexists. split; [apply fin_float32; exact Fc|reflexivity].
  - unfold usual. repeat split; lra.
  - lra.
  - lra.
  - assert (C3' : ((1 - / 250000) * U) * ((1 - / 250000) * U) * ((1 - / 250000) * U) <= c * c * c).
    { assert (0 <= (1 - / 250000) * U) by lra. apply Rmult_le_compat; [apply Rmult_le_pos; lra|lra|apply Rmult_le_compat; lra|lra]. }
    assert (0 < U * U * U) by (apply Rmult_lt_0_compat; [apply Rmult_lt_0_compat|]; lra).
    assert (L2 : L * L <= (1 + / 4194304) * (1 + / 4194304) * (len * len)) by (apply square_up; lra).
    assert (j * (L * L) <= (1 + / 4194304) * (1 + / 4194304) * (j * (len * len))).
    { replace ((1 + / 4194304) * (1 + / 4194304) * (j * (len * len))) with (j * ((1 + / 4194304) * (1 + / 4194304) * (len * len))) by ring. apply Rmult_le_compat_l; lra. }
    lra.
Qed.
Lemma limits_lemma X M a d v j m dl len fo f : axis_limits X M a d v j -> straight_by X m dl len -> feed_is m fo f -> gentle a d v j len f ->
  exists l, fl_j l = j /\ Rabs (fl_L l - len) <= len / 4194304 /\ limits_kept a d v f dl len l /\ limits_used a d v f dl len l /\
    standing X (prof_setSpeed (sf_arith X) M (p_zero (aF (sf_arith X))) (traj_set (sf_arith X) m) m) (t_length (traj_set (sf_arith X) m)) fo (fl_a l) (fl_d l) (fl_j l) (fl_vm l) (fl_L l).
Proof.
  intros AL SB FE ((V & TV & JV) & (U & U0 & UV & UF & JU)).
  assert (D : exists vd, dirs X m dl len vd).
  { destruct (dir_rel X m dl len 0 SB ltac:(lia)) as (v0 & H0). destruct (dir_rel X m dl len 1 SB ltac:(lia)) as (v1 & H1). destruct (dir_rel X m dl len 2 SB ltac:(lia)) as (v2 & H2).
    exists (fun i => match i with 0%nat => v0 | 1%nat => v1 | _ => v2 end). intros [|[|[|i]]] Hi; auto; lia. }
  destruct D as (vd & D). destruct (sb_length _ _ _ _ SB) as (FL & LB). destruct (sb_line _ _ _ _ SB) as (A0 & A1).
  destruct (limits_any X M a d v j m dl len fo f (fun _ => None) vd U V AL D FL LB (sb_some _ _ _ _ SB)) as (l & Jl & Ll & Kl & _ & Ua & Ud & Uv & ST); auto.
  - intros i Hi. cbn [traj_set t_arc0 t_arc1]. rewrite A0, A1. destruct i as [|[|[|i]]]; [reflexivity..|lia].
  - discriminate.
  - exists l. split; auto. split; auto. split; auto. split; [|exact ST]. split; auto. split; auto. destruct Uv as [Uv|[Uv|(i & _ & Uv)]]; auto. discriminate.
Qed.
(** The askew motion of C77 and a traverse of 100 mm, on the machine of the firmware. *)
Lemma limits_example X : let A := sf_arith X in let M := cnc3axis A in let fo := nofZ (aF A) 1 in
  let a := fun _ : nat => 200 in let v := fun _ : nat => 30 in let dl1 := fun i => IZR (nth i [-30; 40; 0]%Z 0%Z) in let dl2 := fun i => IZR (nth i [100; 0; 0]%Z 0%Z) in
  axis_limits X M a a v 600 /\
  straight_by X (fq_m (ex_q2 X)) dl1 50 /\ feed_is (fq_m (ex_q2 X)) fo (Some 20) /\ gentle a a v 600 50 (Some 20) /\
  straight_by X (travX A 100) dl2 100 /\ feed_is (travX A 100) fo None /\ gentle a a v 600 100 None.
Proof.
  cbv zeta. assert (L : forall z, (Z.abs z <= 16777216)%Z -> float32 (nofZ (aF (sf_arith X)) z) (IZR z)) by (intros z Hz; apply fin_float32, fin_lit; auto).
  split. { constructor.
    - intros i Hi. split; [|unfold moderate; lra]. destruct i as [|[|[|i]]]; [exact (L 200%Z ltac:(lia))..|lia].
    - intros i Hi. split; [|unfold moderate; lra]. destruct i as [|[|[|i]]]; [exact (L (-200)%Z ltac:(lia))..|lia].
    - intros i Hi. split; [|unfold moderate; lra]. destruct i as [|[|[|i]]]; [exact (L 30%Z ltac:(lia))..|lia].
    - split; [exact (L 600%Z ltac:(lia))|unfold usual; lra]. }
  assert (FO : float32 (nofZ (aF (sf_arith X)) 1) 1) by (exact (L 1%Z ltac:(lia))).
  split. { constructor; [split; reflexivity|split; [apply float64_lit; lia|lra]| |exists 1%nat; split; [lia|]; cbn [nth]; rewrite Rabs_pos_eq; lra].
    intros [|[|[|i]]] Hi; try lia; cbn [nth]; (split; [apply float64_lit; lia|split; [apply Rabs_le; lra|]]); ((left; reflexivity) || (right; unfold Rabs; destruct (Rcase_abs _); lra)). }
  split. { exists 1. split; auto. split; [lra|]. exists 20. split; [apply float64_lit; lia|]. lra. }
  split. { split; [exists 20; split; [right; exists 20; split; [reflexivity|lra]|intros; lra]|]. exists 20. split; [lra|]. split; [intros; lra|]. split; [intros g G; injection G as <-; lra|lra]. }
  split. { constructor; [split; reflexivity|split; [apply float64_lit; lia|lra]| |exists 0%nat; split; [lia|]; cbn [nth]; rewrite Rabs_pos_eq; lra].
    intros [|[|[|i]]] Hi; try lia; cbn [nth]; (split; [apply float64_lit; lia|split; [apply Rabs_le; lra|]]); ((left; reflexivity) || (right; unfold Rabs; destruct (Rcase_abs _); lra)). }
  split. { exists 1. split; auto. split; [lra|]. reflexivity. }
  split; [exists 60; split; [left; intros; lra|intros; lra]|]. exists 30. split; [lra|]. split; [intros; lra|]. split; [discriminate|lra].
Qed.
