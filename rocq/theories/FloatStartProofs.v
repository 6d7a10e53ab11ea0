(** binary32: appending motions and starting the controller. *)
Require Import List Arith NArith ZArith Bool Reals Lra Lia ZifyBool ZifyNat ZifyN.
From Coq Require Import Floats.SpecFloat.
From Flocq Require Import Zaux Raux Defs Generic_fmt FLT Float_prop Round_NE Ulp Round_pred Relative BinarySingleNaN.
From Verif Require Import Base BaseProofs EventModel StepModel Num NumSF MotionModel CtrlModel CtrlSpec CtrlProofs CtrlQueueProofs RingProofs FloatSpec FloatProofs FloatClockProofs FloatErrProofs FloatPlanProofs.
Import ListNotations.
Open Scope R_scope.

Section Keep.
Context {D F : Type} (A : arith D F).
Notation K := (aF A).
Definition kept (p p' : profile F) : Prop :=
  p_doneLength p' = p_doneLength p /\ p_doneDuration p' = p_doneDuration p /\
  ad_vStart (p_left p') = ad_vStart (p_left p) /\ ad_vEnd (p_right p') = ad_vEnd (p_right p) /\
  p_vFeed p' = p_vFeed p /\ p_vMax p' = p_vMax p /\ p_aMax p' = p_aMax p /\ p_dMax p' = p_dMax p /\ p_jMax p' = p_jMax p.
Lemma kept_refl p : kept p p.
Proof. unfold kept. auto 10. Qed.
Lemma kept_trans p q r : kept p q -> kept q r -> kept p r.
Proof. unfold kept. intros (a1 & a2 & a3 & a4 & a5 & a6 & a7 & a8 & a9) (b1 & b2 & b3 & b4 & b5 & b6 & b7 & b8 & b9). repeat split; etransitivity; eassumption. Qed.
Lemma calc_ends l o : ad_vStart (ad_calculate K l o) = ad_vStart l /\ ad_vEnd (ad_calculate K l o) = ad_vEnd l.
Proof. unfold ad_calculate. destruct o; [split; reflexivity|]. repeat match goal with |- context [if ?c then _ else _] => destruct c end; split; reflexivity. Qed.
Lemma ramps_kept p v o : kept p (p_ramps K p v o).
Proof.
  unfold kept, p_ramps. cbn [p_doneLength p_doneDuration p_left p_right p_vFeed p_vMax p_aMax p_dMax p_jMax].
  rewrite (proj1 (calc_ends _ _)), (proj2 (calc_ends _ _)). repeat split.
Qed.
Lemma opt_kept p len minS fo s : kept p (p_optimize K p len minS fo s).
Proof.
  unfold p_optimize. destruct (p_plan K p len minS fo s) as (v, o). cbv zeta.
  match goal with |- context [if ?c then p_ramps K ?a v firstOrder else ?a] => set (p2 := if c then p_ramps K a v firstOrder else a) end.
  assert (kept p p2). { unfold p2. destruct (nltb _ _ _); [eapply kept_trans|]; apply ramps_kept. }
  exact H.
Qed.
Lemma opt_left p len minS fo s : exists v o l, fst (p_plan K p len minS fo s) = v /\
  p_left (p_optimize K p len minS fo s) = ad_calculate K l o /\ ad_vStart l = ad_vStart (p_left p) /\ ad_vEnd l = v /\
  ad_aMax l = p_aMax p /\ ad_dMax l = p_dMax p /\ ad_jMax l = p_jMax p.
Proof.
  unfold p_optimize. destruct (p_plan K p len minS fo s) as (v, o). cbv zeta. exists v.
  destruct (nltb _ _ _); cbn [p_left].
  - exists firstOrder. eexists. split; [reflexivity|]. split; [reflexivity|]. cbn. rewrite (proj1 (calc_ends _ _)). auto.
  - exists o. eexists. split; [reflexivity|]. split; [reflexivity|]. cbn. auto.
Qed.
End Keep.

Section Start.
Variables (X : sf_funs) (M : machine sf) (fo : sf).
Notation A := (sf_arith X).
Notation K := (aF (sf_arith X)).
Notation zero := (nofZ (aF (sf_arith X)) 0).

Lemma zero_lit x : fin32 x 0 -> exists s, x = S754_zero s.
Proof.
  intro H. pose proof (fin_value _ _ _ _ H) as V. destruct x as [s|s| |s m e]; try contradiction; [eauto|].
  exfalso. pose proof (bpow_gt_0 radix2 e). assert (IZR (cond_Zopp s (Z.pos m)) <> 0) by (apply IZR_neq; destruct s; discriminate).
  symmetry in V. apply Rmult_integral in V. destruct V; lra.
Qed.
Lemma add_lit x : fin32 x 0 -> nadd K zero x = zero.
Proof. intro H. destruct (zero_lit x H) as (s & ->). destruct s; reflexivity. Qed.
Lemma sub_lit x : fin32 x 0 -> nsub K zero x = zero.
Proof. intro H. destruct (zero_lit x H) as (s & ->). destruct s; reflexivity. Qed.
Lemma mul_zero_l x y r : fin32 x 0 -> fin32 y r -> fin32 (nmul K x y) 0.
Proof.
  intros H1 H2. replace 0 with (rnd (0 * r)) by (rewrite Rmult_0_l; apply rnd_0). apply (fin_mul _ _ prec24 max24); auto. apply small_le. rewrite Rmult_0_l, Rabs_R0. lra.
Qed.
Lemma mul_zero_r x y r : fin32 x r -> fin32 y 0 -> fin32 (nmul K x y) 0.
Proof.
  intros H1 H2. replace 0 with (rnd (r * 0)) by (rewrite Rmult_0_r; apply rnd_0). apply (fin_mul _ _ prec24 max24); auto. apply small_le. rewrite Rmult_0_r, Rabs_R0. lra.
Qed.
Lemma div_zero x y r : fin32 x 0 -> fin32 y r -> r <> 0 -> fin32 (ndiv K x y) 0.
Proof.
  intros H1 H2 N. replace 0 with (rnd (0 / r)) by (unfold Rdiv; rewrite Rmult_0_l; apply rnd_0). apply (fin_div _ _ prec24 max24); auto. apply small_le. unfold Rdiv. rewrite Rmult_0_l, Rabs_R0. lra.
Qed.
Lemma fz : fin32 zero 0.
Proof. apply (fin_zero 24 128 false). Qed.

(** A ramp that stays at standstill has speed 0 at time 0. *)
Lemma still_v l o a d j : ad_vStart l = zero -> ad_vEnd l = zero -> fin32 (ad_aMax l) a -> fin32 (ad_dMax l) (- d) -> fin32 (ad_jMax l) j ->
  usual a -> usual d -> usual j -> ad_v K (ad_calculate K l o) zero = zero.
Proof.
  intros E0 E1 Fa Fd Fj Ua Ud Uj. unfold usual in *.
  assert (LT : nltb K zero zero = false) by reflexivity.
  assert (H2 : fin32 (nofZ K (-1)) (-1)). { rewrite <- (rnd_int (-1)) by lia. apply (fin_ofZ _ _ prec24 max24). apply small_le. apply Rabs_le. lra. }
  assert (Hh : exists h, fin32 (ndec K 5 1) h) by (eexists; apply fin_float32; split; [vm_compute; reflexivity|cbn; reflexivity]).
  destruct Hh as (h & Hh).
  assert (ZZ : nsub K zero zero = zero) by reflexivity.
  assert (NL : forall x, fin32 x 0 -> nltb K zero x = false /\ nltb K x zero = false).
  { intros x H. destruct (zero_lit x H) as (s & ->). destruct s; split; reflexivity. }
  assert (AZ : forall x y, fin32 x 0 -> fin32 y 0 -> fin32 (nadd K x y) 0).
  { intros x y H H'. replace 0 with (rnd (0 + 0)) by (rewrite Rplus_0_l; apply rnd_0). apply (fin_add _ _ prec24 max24); auto. apply small_le. rewrite Rplus_0_l, Rabs_R0. lra. }
  assert (END : forall dV1 dm tM r, fin32 dV1 0 -> fin32 dm r -> fin32 tM 0 -> nadd K (nadd K zero dV1) (nmul K dm tM) = zero).
  { intros dV1 dm tM r H1 H3 H4. rewrite (add_lit _ H1). apply add_lit. eapply mul_zero_r; eauto. }
  destruct o.
  - cbn [ad_calculate]. unfold ad_v. cbn [ad_vStart ad_vEnd ad_duration ad_d1d3 ad_d2 ad_jMax ad_dV1 ad_aMax ad_dMax]. rewrite E0, E1, LT, ZZ.
    assert (D2 : fin32 (ndiv K zero (ad_dMax l)) 0) by (eapply div_zero; [apply fz|eauto|lra]).
    rewrite (add_lit _ D2), LT. apply (END _ _ _ (- d)); auto; apply fz.
  - unfold ad_calculate. rewrite E0, E1, LT, ZZ.
    assert (Fdl : fin32 (ndiv K (nopp K (ad_dMax l)) (ad_jMax l)) (rnd (d / j))).
    { replace d with (- - d) at 1 by ring. apply (fin_div _ _ prec24 max24); auto; [apply fin_opp; auto|lra|]. apply small_huge.
      rewrite Ropp_involutive, Rabs_pos_eq by (apply Rlt_le, Rdiv_lt_0_compat; lra). unfold Rdiv, highest.
      assert (/ j <= 16384) by (replace 16384 with (/ / 16384) by lra; apply Rinv_le_contravar; lra). assert (0 < / j) by (apply Rinv_0_lt_compat; lra).
      apply Rle_trans with (1048576 * 16384); [apply Rmult_le_compat; lra|lra]. }
    assert (Pdl : 0 < rnd (d / j)).
    { assert (G : / 17179869184 <= d / j). { unfold Rdiv. replace (/ 17179869184) with (/ 16384 * / 1048576) by lra. apply Rmult_le_compat; try lra. apply Rinv_le_contravar; lra. }
      pose proof (rnd_err (d / j)) as RE. rewrite (Rabs_pos_eq (d / j)) in RE by lra. apply Rabs_le_inv in RE. unfold eps, eta in RE. lra. }
    set (dl := ndiv K (nopp K (ad_dMax l)) (ad_jMax l)) in *.
    match goal with |- context [if ?b then (?x, ?y, ?z) else ?w] => destruct b end; unfold ad_v; cbn [ad_vStart ad_vEnd ad_duration ad_d1d3 ad_d2 ad_jMax ad_dV1 ad_aMax ad_dMax]; rewrite LT.
    + assert (F1 : fin32 (ndiv K zero (ad_jMax l)) 0) by (eapply div_zero; [apply fz|eauto|lra]).
      assert (F2 : fin32 (nsqrt K (ndiv K zero (ad_jMax l))) 0).
      { replace 0 with (rnd (sqrt 0)) by (rewrite sqrt_0; apply rnd_0). apply (fin_sqrt _ _ prec24 max24); auto. lra. }
      set (y := nsqrt K (ndiv K zero (ad_jMax l))) in *. destruct (NL y F2) as (-> & _).
      destruct (NL (nadd K y zero) (AZ _ _ F2 fz)) as (_ & ->).
      apply (END _ _ _ 0).
      * eapply mul_zero_l; [|eauto]. eapply mul_zero_r; [|eauto]. eapply mul_zero_r; [|eauto]. apply fin_opp; eauto.
      * eapply mul_zero_r; [|eauto]. apply fin_opp; eauto.
      * rewrite sub_lit by auto. apply fz.
    + assert (nltb K zero dl = true) as ->. { refine (eq_trans (fin_ltb _ _ _ _ _ _ fz Fdl) _). now apply Rlt_bool_true. }
      apply sub_lit. eapply mul_zero_l; [|eauto]. eapply mul_zero_r; [|apply fz]. eapply mul_zero_r; [eauto|apply fz].
Qed.

(** *** What a motion must satisfy, and its slot in the queue. *)
Definition base (m : smotion sf) : profile sf := prof_setSpeed A M (p_zero K) (traj_set A m) m.
Record fmove := mkFM { fm_m : smotion sf; fm_a : R; fm_d : R; fm_j : R; fm_vm : R; fm_L : R }.
Definition fm_ok (q : fmove) : Prop := is_move (sm_type (fm_m q)) = true /\
  standing X (base (fm_m q)) (t_length (traj_set A (fm_m q))) fo (fm_a q) (fm_d q) (fm_j q) (fm_vm q) (fm_L q).
Definition limited (o : motion sf) (q : fmove) : Prop := fm_ok q /\
  mo_type o = sm_type (fm_m q) /\ mo_traj o = traj_set A (fm_m q) /\ kept (base (fm_m q)) (mo_prof o).
Definition headed (o : motion sf) (q : fmove) : Prop := limited o q /\ ad_v K (p_left (mo_prof o)) zero = zero.
Definition planned (o : motion sf) (q : fmove) : Prop := limited o q /\
  exists p, kept (base (fm_m q)) p /\ mo_prof o = p_optimize K p (t_length (traj_set A (fm_m q))) (m_minS M) fo maximizeSpeed.

Lemma standing_kept p p' len a d j vm L : standing X p len fo a d j vm L -> kept p p' -> standing X p' len fo a d j vm L.
Proof.
  intros [S1 S2 S3 S4 S5 S6 S7 S8 S9 S10 S11] (k1 & k2 & k3 & k4 & k5 & k6 & k7 & k8 & k9). constructor; auto; rewrite ?k1, ?k2, ?k3, ?k4, ?k5, ?k6, ?k7, ?k8, ?k9; auto.
Qed.
Lemma base_still m : p_doneLength (base m) = zero /\ p_doneDuration (base m) = zero /\ ad_vStart (p_left (base m)) = zero /\ ad_vEnd (p_right (base m)) = zero.
Proof. unfold base, prof_setSpeed. destruct (limits A M (traj_set A m)) as ((v & a) & d). repeat split. Qed.
Lemma limited_vEnd o q : limited o q -> limited (with_right_vEnd o zero) q.
Proof.
  intros (H & H1 & H2 & k1 & k2 & k3 & k4 & k5 & k6 & k7 & k8 & k9). destruct (base_still (fm_m q)) as (_ & _ & _ & B4). do 3 (split; [assumption|]).
  unfold kept. cbn [with_right_vEnd mo_prof p_doneLength p_doneDuration p_left p_right p_vFeed p_vMax p_aMax p_dMax p_jMax ad_setvEnd ad_vEnd]. rewrite B4. auto 10.
Qed.
Lemma headed_vEnd o q : headed o q -> headed (with_right_vEnd o zero) q.
Proof. intros (H1 & H2). split; [now apply limited_vEnd|exact H2]. Qed.
Lemma limited_vStart o q : limited o q -> limited (with_left_vStart o zero) q.
Proof.
  intros (H & H1 & H2 & k1 & k2 & k3 & k4 & k5 & k6 & k7 & k8 & k9). destruct (base_still (fm_m q)) as (_ & _ & B3 & _). do 3 (split; [assumption|]).
  unfold kept. cbn [with_left_vStart mo_prof p_doneLength p_doneDuration p_left p_right p_vFeed p_vMax p_aMax p_dMax p_jMax ad_setvStart ad_vStart]. rewrite B3. auto 10.
Qed.
Lemma limited_best o q : limited o q -> planned (mo_optimize A M o fo maximizeSpeed) q.
Proof.
  intros (H & H1 & H2 & KP). unfold mo_optimize. rewrite H1, (proj1 H). split.
  - split; auto. cbn [mo_type mo_traj mo_prof]. split; auto. split; auto. eapply kept_trans; [exact KP|]. apply opt_kept.
  - exists (mo_prof o). split; auto. cbn [mo_prof]. now rewrite H2.
Qed.
Lemma headed_best o q : headed o q -> planned (mo_optimize_at A M o fo maximizeSpeed zero) q.
Proof.
  intros ((H & H1 & H2 & KP) & HV). unfold mo_optimize_at. apply limited_best. split; auto. cbn [mo_type mo_traj mo_prof]. split; auto. split; auto.
  destruct (base_still (fm_m q)) as (B1 & B2 & B3 & B4). destruct KP as (k1 & k2 & k3 & k4 & k5 & k6 & k7 & k8 & k9).
  unfold p_replan_start, kept. cbn [p_doneLength p_doneDuration p_left p_right p_vFeed p_vMax p_aMax p_dMax p_jMax ad_setvStart ad_vStart].
  unfold p_v, p_s. cbn [p_doneLength p_doneDuration p_left p_right]. rewrite k2, B2. change (nleb K zero zero) with true. cbv iota. rewrite HV, B3, k1. auto 10.
Qed.
Lemma set_headed o m q : fm_ok q -> fm_m q = m -> headed (mo_set A M o m fo minimizeSpeed) q.
Proof.
  intros H <-. pose proof H as (H1 & ST). unfold mo_set. rewrite H1. unfold mo_optimize. cbn [mo_type]. rewrite H1. cbn [mo_type mo_traj mo_prof].
  set (p0 := prof_setSpeed A M (mo_prof o) (traj_set A (fm_m q)) (fm_m q)).
  assert (KB : kept (base (fm_m q)) p0). { unfold base, p0, kept, prof_setSpeed. destruct (limits A M (traj_set A (fm_m q))) as ((v & a) & d). repeat split. }
  split.
  - split; auto. cbn [mo_type mo_traj mo_prof]. split; auto. split; auto. eapply kept_trans; [exact KB|]. apply opt_kept.
  - cbn [mo_prof]. destruct (opt_left A p0 (t_length (traj_set A (fm_m q))) (m_minS M) fo minimizeSpeed) as (v & o' & l & V & -> & L1 & L2 & L3 & L4 & L5).
    pose proof (standing_kept _ _ _ _ _ _ _ _ ST KB) as S0. destruct (sd_usual _ _ _ _ _ _ _ _ _ S0) as (Ua & Ud & Uj & Uv & UL).
    destruct (sd_still _ _ _ _ _ _ _ _ _ S0) as (S1 & S2).
    assert (G1 : ad_vStart l = zero) by now rewrite L1, S1.
    assert (Fa : fin32 (p_aMax p0) (fm_a q)) by apply fin_float32, S0. assert (Fd : fin32 (p_dMax p0) (- fm_d q)) by apply fin_float32, S0.
    assert (Fj : fin32 (p_jMax p0) (fm_j q)) by apply fin_float32, S0. assert (FL : fin32 (t_length (traj_set A (fm_m q))) (fm_L q)) by apply fin_float32, S0.
    assert (G2 : ad_vEnd l = zero).
    { rewrite L2, <- V. unfold p_plan.
      rewrite (vMin_zero X (fm_a q) (fm_d q) (fm_L q) p0 (t_length (traj_set A (fm_m q)))); auto; try apply S0; reflexivity. }
    apply (still_v l o' (fm_a q) (fm_d q) (fm_j q)); auto; congruence.
Qed.
End Start.
