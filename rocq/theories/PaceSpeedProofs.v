(** The speed of an axis along a sequence of legs. *)
Require Import List Arith NArith ZArith Bool Reals Lra Lia.
From Verif Require Import Base Num NumR MotionModel CtrlModel CtrlRSpec ProfileSpec GeomSpec GeomProofs PlanProofs RunSpec RunLegProofs PaceSpec.
Import ListNotations.
Open Scope R_scope.

(** [W] moves at speed [V] between times 0 and [T], at most at [u], and its speed changes at
    most by [a] per second. *)
Record paced (u a T : R) (W V : R -> R) : Prop := {
  pc_lip : forall x y, 0 <= x <= y -> y <= T -> Rabs (V y - V x) <= a * (y - x);
  pc_max : forall t, 0 <= t <= T -> Rabs (V t) <= u;
  pc_int : forall x y lo hi, 0 <= x <= y -> y <= T -> (forall t, x <= t <= y -> lo <= V t <= hi) -> lo * (y - x) <= W y - W x <= hi * (y - x) }.

(** Derivative of a path along it. *)
Definition slope (P : path) (i : nat) (s : R) : R :=
  match pa_arc P with
  | Some a =>
      let k := ar_da a / pa_len P in
      if (i =? ar_0 a)%nat then ar_r a * (- sin (ar_a0 a + ar_da a * (s / pa_len P)) * k)
      else if (i =? ar_1 a)%nat then ar_r a * (cos (ar_a0 a + ar_da a * (s / pa_len P)) * k)
      else pa_delta P i / pa_len P
  | None => pa_delta P i / pa_len P
  end.

Section Path.
Variable P : path.
Hypothesis OK : path_ok P.

Lemma lin_slope b k s : derivable_pt_lim (fun s => b + k * (s / pa_len P)) s (k / pa_len P).
Proof.
  replace (k / pa_len P) with (0 + k * ((1 * pa_len P - 0 * s) / Rsqr (pa_len P))).
  2:{ unfold Rsqr. field. pose proof (proj1 OK). lra. }
  apply (derivable_pt_lim_plus (fct_cte b) (fun s => k * (s / pa_len P))); [apply derivable_pt_lim_const|].
  apply (derivable_pt_lim_scal (fun s => s / pa_len P)).
  apply (derivable_pt_lim_div id (fct_cte (pa_len P))); [apply derivable_pt_lim_id|apply derivable_pt_lim_const|].
  unfold fct_cte. pose proof (proj1 OK). lra.
Qed.
Lemma pos_slope i s : derivable_pt_lim (path_pos P i) s (slope P i s).
Proof.
  unfold slope. assert (LIN : derivable_pt_lim (linear_pos P i) s (pa_delta P i / pa_len P)) by apply lin_slope.
  unfold path_pos. destruct (pa_arc P) as [a|]; [|exact LIN].
  destruct (i =? ar_0 a)%nat; [|destruct (i =? ar_1 a)%nat; [|exact LIN]].
  - rewrite <- (Rplus_0_l (ar_r a * _)).
    apply (derivable_pt_lim_plus (fct_cte (ar_c0 a)) (fun s => ar_r a * cos (ar_a0 a + ar_da a * (s / pa_len P)))); [apply derivable_pt_lim_const|].
    apply (derivable_pt_lim_scal (fun s => cos (ar_a0 a + ar_da a * (s / pa_len P)))).
    apply (derivable_pt_lim_comp (fun s => ar_a0 a + ar_da a * (s / pa_len P)) cos); [apply lin_slope|apply derivable_pt_lim_cos].
  - rewrite <- (Rplus_0_l (ar_r a * _)).
    apply (derivable_pt_lim_plus (fct_cte (ar_c1 a)) (fun s => ar_r a * sin (ar_a0 a + ar_da a * (s / pa_len P)))); [apply derivable_pt_lim_const|].
    apply (derivable_pt_lim_scal (fun s => sin (ar_a0 a + ar_da a * (s / pa_len P)))).
    apply (derivable_pt_lim_comp (fun s => ar_a0 a + ar_da a * (s / pa_len P)) sin); [apply lin_slope|apply derivable_pt_lim_sin].
Qed.
(** The slope is the share, at most. *)
Lemma slope_share i s : Rabs (slope P i s) <= Rabs (share P i).
Proof.
  unfold slope, share, on_arc. destruct (pa_arc P) as [a|] eqn:EA; [|lra].
  pose proof (arc_share P OK a EA) as AS.
  assert (K : forall x, Rabs x <= 1 -> Rabs (ar_r a * (x * (ar_da a / pa_len P))) <= 1).
  { intros x Hx. replace (ar_r a * (x * (ar_da a / pa_len P))) with (x * (ar_r a * ar_da a / pa_len P)) by (unfold Rdiv; ring).
    rewrite Rabs_mult. rewrite <- (Rmult_1_l 1). apply Rmult_le_compat; auto using Rabs_pos. }
  destruct (i =? ar_0 a)%nat; cbn [orb].
  - rewrite Rabs_R1. apply K. rewrite Rabs_Ropp. apply Rabs_le. pose proof (SIN_bound (ar_a0 a + ar_da a * (s / pa_len P))). lra.
  - destruct (i =? ar_1 a)%nat; [|lra]. rewrite Rabs_R1. apply K. apply Rabs_le. pose proof (COS_bound (ar_a0 a + ar_da a * (s / pa_len P))). lra.
Qed.
(** In an arc it changes by the curvature. *)
Lemma slope_turn i s s' : Rabs (slope P i s - slope P i s') <= (match pa_arc P with Some a => if on_arc P i then / ar_r a else 0 | None => 0 end) * Rabs (s - s').
Proof.
  pose proof (proj1 OK) as LP.
  unfold slope, on_arc. destruct (pa_arc P) as [a|] eqn:EA; [|rewrite Rminus_diag_eq, Rabs_R0 by auto; lra].
  assert (RP : 0 < ar_r a) by (destruct OK as (_ & HO); rewrite EA in HO; apply HO).
  pose proof (arc_share P OK a EA) as AS.
  assert (ARC : forall f : R -> R, (forall x y, Rabs (f x - f y) <= Rabs (x - y)) ->
    Rabs (ar_r a * (f (ar_a0 a + ar_da a * (s / pa_len P)) * (ar_da a / pa_len P)) - ar_r a * (f (ar_a0 a + ar_da a * (s' / pa_len P)) * (ar_da a / pa_len P)))
      <= / ar_r a * Rabs (s - s')).
  { intros f Hf. set (x := ar_a0 a + ar_da a * (s / pa_len P)). set (y := ar_a0 a + ar_da a * (s' / pa_len P)).
    set (q := ar_r a * ar_da a / pa_len P) in *.
    replace (ar_r a * (f x * (ar_da a / pa_len P)) - ar_r a * (f y * (ar_da a / pa_len P))) with (q * (f x - f y)) by (unfold q; field; lra).
    rewrite Rabs_mult. apply Rle_trans with (1 * Rabs (f x - f y)); [apply Rmult_le_compat_r; [apply Rabs_pos|auto]|]. rewrite Rmult_1_l.
    eapply Rle_trans; [apply Hf|]. replace (x - y) with (/ ar_r a * q * (s - s')) by (unfold x, y, q; field; lra).
    rewrite !Rabs_mult, (Rabs_right (/ ar_r a)) by (apply Rle_ge, Rlt_le, Rinv_0_lt_compat; auto). apply Rmult_le_compat_r; [apply Rabs_pos|].
    rewrite <- (Rmult_1_r (/ ar_r a)) at 2. apply Rmult_le_compat_l; [apply Rlt_le, Rinv_0_lt_compat; auto|auto]. }
  destruct (i =? ar_0 a)%nat; cbn [orb].
  - apply (ARC (fun x => - sin x)). intros x y. replace (- sin x - - sin y) with (- (sin x - sin y)) by ring. rewrite Rabs_Ropp. apply sin_lip.
  - destruct (i =? ar_1 a)%nat; [apply (ARC cos), cos_lip|]. rewrite Rminus_diag_eq, Rabs_R0 by auto. lra.
Qed.
End Path.

Lemma abs_between x y z : - y <= x <= z -> 0 <= y -> 0 <= z -> Rabs x <= Rmax y z.
Proof. intros H Y Z. pose proof (Rmax_l y z). pose proof (Rmax_r y z). apply Rabs_le. lra. Qed.

(** One leg. *)
Lemma leg_paced r f fo l i u : (forall j, (j < 3)%nat -> 0 < rm_a r j /\ rm_d r j < 0) -> leg_ok r f fo l -> (i < 3)%nat ->
  rm_v r i <= u \/ (exists x, f = XF x /\ x * fo <= u) ->
  exists V, V 0 = 0 /\ V (lg_T l) = 0 /\ paced u (turn r i) (lg_T l) (fun t => path_pos (lg_path l) i (lg_s l t)) V.
Proof.
  intros RP (OK & HT & V0 & a & d & vm & v & acc & LO & VM & FE & PS & _) Hi HU. set (P := lg_path l) in *. set (s := lg_s l) in *. set (T := lg_T l) in *.
  destruct (lo_pos _ _ _ _ _ LO) as (VP & AP & DN). destruct (RP i Hi) as [RA RD].
  destruct (ps_start _ _ _ _ _ _ _ _ _ _ _ _ PS) as [S0 W0]. destruct (ps_end _ _ _ _ _ _ _ _ _ _ _ _ PS) as [S1 W1].
  pose proof (Rabs_pos (share P i)) as SP.
  assert (S1' : Rabs (share P i) <= 1).
  { unfold share. destruct (on_arc P i) eqn:EO; [rewrite Rabs_R1; lra|]. pose proof (proj1 OK) as LP. destruct OK as (_ & HO).
    assert (Q : sq (pa_delta P i) <= sq (pa_len P)).
    { cbv zeta in HO. pose proof (sq_nonneg (pa_delta P 0%nat)). pose proof (sq_nonneg (pa_delta P 1%nat)). pose proof (sq_nonneg (pa_delta P 2%nat)).
      assert (LL : sq (pa_delta P i) <= (if on_arc P 0 then 0 else sq (pa_delta P 0)) + (if on_arc P 1 then 0 else sq (pa_delta P 1)) + (if on_arc P 2 then 0 else sq (pa_delta P 2))).
      { destruct i as [|[|[|i]]]; [rewrite EO|rewrite EO|rewrite EO|lia]; repeat match goal with |- context [if ?b then _ else _] => destruct b end; lra. }
      destruct (pa_arc P) as [ar|].
      - destruct HO as (_ & _ & _ & _ & HQ). pose proof (sq_nonneg (ar_r ar * ar_da ar)). lra.
      - lra. }
    unfold Rdiv. rewrite Rabs_mult, (Rabs_right (/ pa_len P)) by (apply Rle_ge, Rlt_le, Rinv_0_lt_compat; auto).
    apply (Rmult_le_reg_r (pa_len P)); auto. rewrite Rmult_assoc, Rinv_l, Rmult_1_r, Rmult_1_l by lra.
    apply Rsqr_incr_0_var; [|lra]. rewrite <- Rsqr_abs. unfold sq, Rsqr in *. exact Q. }
  assert (VMU : vm * Rabs (share P i) <= u).
  { destruct HU as [HU|(x & E & HU)].
    - eapply Rle_trans; [|exact HU]. eapply Rle_trans; [|apply (lo_v _ _ _ _ _ LO i Hi)]. apply Rmult_le_compat_r; lra.
    - specialize (FE x E). apply Rle_trans with (vm * 1); [apply Rmult_le_compat_l; lra|lra]. }
  assert (SM : forall x y, 0 <= x <= y -> y <= T -> 0 <= s y - s x <= vm * (y - x)).
  { intros x y H1 H2. pose proof (lip s v vm 0 x y ltac:(lra)) as K.
    assert (0 * (y - x) <= s y - s x <= vm * (y - x)); [|lra]. apply K.
    - intros t Ht. apply (ps_speed _ _ _ _ _ _ _ _ _ _ _ _ PS). lra.
    - intros t Ht. apply (ps_scont _ _ _ _ _ _ _ _ _ _ _ _ PS). lra.
    - intros t Ht. apply (ps_vbound _ _ _ _ _ _ _ _ _ _ _ _ PS). lra. }
  exists (fun t => slope P i (s t) * v t). split; [cbv beta; rewrite W0; ring|]. split; [cbv beta; rewrite W1; ring|]. constructor.
  - intros x y H1 H2. set (D := Rmax (rm_a r i) (- rm_d r i)).
    pose proof (ps_vbound _ _ _ _ _ _ _ _ _ _ _ _ PS x ltac:(lra)) as VX.
    pose proof (ps_accel _ _ _ _ _ _ _ _ _ _ _ _ PS x y ltac:(lra) ltac:(lra)) as AC. pose proof (SM x y H1 H2) as SX.
    assert (T1 : Rabs (slope P i (s y) * (v y - v x)) <= D * (y - x)).
    { rewrite Rabs_mult. apply Rle_trans with (Rabs (share P i) * Rabs (v y - v x)); [apply Rmult_le_compat_r; [apply Rabs_pos|apply slope_share; auto]|].
      pose proof (lo_a _ _ _ _ _ LO i Hi) as LA. pose proof (lo_d _ _ _ _ _ LO i Hi) as LD.
      pose proof (Rmax_l (rm_a r i) (- rm_d r i)) as M1. pose proof (Rmax_r (rm_a r i) (- rm_d r i)) as M2. fold D in M1, M2.
      rewrite <- (Rabs_right (Rabs (share P i))) at 1 by lra. rewrite <- Rabs_mult. apply Rabs_le.
      set (q := Rabs (share P i)) in *.
      assert (q * (d * (y - x)) <= q * (v y - v x) <= q * (a * (y - x))) by (split; apply Rmult_le_compat_l; lra).
      assert (a * q * (y - x) <= D * (y - x)) by (apply Rmult_le_compat_r; lra).
      assert (- (d * q) * (y - x) <= D * (y - x)) by (apply Rmult_le_compat_r; lra). lra. }
    assert (T2 : Rabs ((slope P i (s y) - slope P i (s x)) * v x) <= rm_a r i * (y - x)).
    { rewrite Rabs_mult, (Rabs_right (v x)) by lra.
      pose proof (slope_turn P OK i (s y) (s x)) as ST. rewrite (Rabs_right (s y - s x)) in ST by lra.
      destruct (pa_arc P) as [ar|] eqn:EA; [destruct (on_arc P i) eqn:EO|].
      - pose proof (lo_c _ _ _ _ _ LO ar i EA EO) as LC.
        assert (RR : 0 < ar_r ar) by (destruct OK as (_ & HO); rewrite EA in HO; apply HO).
        assert (IR : 0 <= / ar_r ar) by (apply Rlt_le, Rinv_0_lt_compat; auto).
        apply Rle_trans with (/ ar_r ar * (vm * (y - x)) * vm).
        + apply Rmult_le_compat; try lra; [apply Rabs_pos|]. eapply Rle_trans; [exact ST|]. apply Rmult_le_compat_l; lra.
        + replace (/ ar_r ar * (vm * (y - x)) * vm) with (vm * vm * / ar_r ar * (y - x)) by ring. apply Rmult_le_compat_r; [lra|].
          eapply Rle_trans; [|exact LC]. apply Rmult_le_compat_r; auto. apply Rmult_le_compat; lra.
      - assert (Rabs (slope P i (s y) - slope P i (s x)) = 0) as -> by (pose proof (Rabs_pos (slope P i (s y) - slope P i (s x))); lra).
        rewrite Rmult_0_l. apply Rmult_le_pos; lra.
      - assert (Rabs (slope P i (s y) - slope P i (s x)) = 0) as -> by (pose proof (Rabs_pos (slope P i (s y) - slope P i (s x))); lra).
        rewrite Rmult_0_l. apply Rmult_le_pos; lra. }
    replace (slope P i (s y) * v y - slope P i (s x) * v x) with (slope P i (s y) * (v y - v x) + (slope P i (s y) - slope P i (s x)) * v x) by ring.
    eapply Rle_trans; [apply Rabs_triang|]. unfold turn. fold D. lra.
  - intros t Ht. pose proof (ps_vbound _ _ _ _ _ _ _ _ _ _ _ _ PS t Ht) as VX. rewrite Rabs_mult, (Rabs_right (v t)) by lra.
    apply Rle_trans with (Rabs (share P i) * vm); [|lra]. apply Rmult_le_compat; try lra; [apply Rabs_pos|apply slope_share; auto].
  - intros x y lo hi H1 H2 HB. apply (lip (fun t => path_pos P i (s t)) (fun t => slope P i (s t) * v t)); [lra|..].
    + intros t Ht. apply (derivable_pt_lim_comp s (path_pos P i)); [apply (ps_speed _ _ _ _ _ _ _ _ _ _ _ _ PS); lra|apply pos_slope; auto].
    + intros t Ht. apply (continuity_pt_comp s (path_pos P i)); [apply (ps_scont _ _ _ _ _ _ _ _ _ _ _ _ PS); lra|].
      apply derivable_continuous_pt. exists (slope P i (s t)). apply pos_slope; auto.
    + intros t Ht. apply HB. lra.
Qed.

(** A sequence of legs. *)
Definition slow (r : rmach) (u : nat -> R) (f : xr) (fo : R) : Prop :=
  forall i, (i < 3)%nat -> rm_v r i <= u i \/ (exists x, f = XF x /\ x * fo <= u i).

Lemma where_paced r u i legs : (forall j, (j < 3)%nat -> 0 < rm_a r j /\ rm_d r j < 0) -> (i < 3)%nat -> 0 <= u i ->
  Forall (fun l => exists f fo, leg_ok r f fo l /\ slow r u f fo) legs -> forall x0, chained x0 (map lg_path legs) ->
  exists V, V 0 = 0 /\ where_at x0 legs 0 i = x0 i /\ forall T, paced (u i) (turn r i) T (fun t => where_at x0 legs t i) V.
Proof.
  intros RP Hi U0. assert (TP : 0 <= turn r i) by (unfold turn; destruct (RP i Hi); pose proof (Rmax_l (rm_a r i) (- rm_d r i)); lra).
  induction legs as [|l rest IH]; intros FA x0 CH.
  - exists (fun _ => 0). split; auto. split; [reflexivity|]. intro T. constructor.
    + intros. rewrite Rminus_diag_eq, Rabs_R0 by auto. apply Rmult_le_pos; lra.
    + intros. rewrite Rabs_R0. auto.
    + intros x y lo hi H1 H2 HB. unfold where_at. cbn [locate]. specialize (HB x ltac:(lra)).
      assert (0 <= hi * (y - x)) by (apply Rmult_le_pos; lra). assert (0 <= - lo * (y - x)) by (apply Rmult_le_pos; lra). lra.
  - inversion FA as [|? ? (f & fo & LO & SL) FA']; subst. cbn [map chained] in CH. destruct CH as [C0 CH].
    destruct (leg_paced r f fo l i (u i) RP LO Hi (SL i Hi)) as (V1 & Z0 & ZT & PC1).
    destruct (IH FA' _ CH) as (V2 & Z2 & X2 & PC2). change (fun i => path_pos (lg_path l) i (pa_len (lg_path l))) with (at_end l) in *.
    pose proof (leg_ok_moves _ _ _ _ LO) as LM. pose proof (lm_T _ _ LM) as HT. set (T1 := lg_T l) in *.
    set (V := fun t => if Rle_dec t T1 then V1 t else V2 (t - T1)).
    set (g := fun t => path_pos (lg_path l) i (lg_s l t)) in *.
    set (h := fun t => where_at (at_end l) rest t i) in *.
    assert (WE : forall t, where_at x0 (l :: rest) t i = if Rle_dec t T1 then g t else h (t - T1)).
    { intro t. unfold where_at, g, h, T1. cbn [locate]. destruct (Rle_dec t (lg_T l)); reflexivity. }
    assert (JG : g T1 = h 0). { unfold h. rewrite X2. unfold g, T1, at_end. rewrite (lm_sT _ _ LM). reflexivity. }
    exists V. split. { unfold V. destruct (Rle_dec 0 T1); [auto|lra]. }
    split. { rewrite WE. destruct (Rle_dec 0 T1); [|lra]. unfold g. rewrite (lm_s0 _ _ LM). apply C0; auto. }
    intro T. constructor.
    + intros x y H1 H2. unfold V. destruct (Rle_dec x T1) as [LX|LX], (Rle_dec y T1) as [LY|LY]; try lra.
      * apply (pc_lip _ _ _ _ _ PC1); auto.
      * pose proof (pc_lip _ _ _ _ _ PC1 x T1 ltac:(lra) ltac:(lra)) as A1. pose proof (pc_lip _ _ _ _ _ (PC2 (y - T1)) 0 (y - T1) ltac:(lra) ltac:(lra)) as A2.
        rewrite ZT in A1. rewrite Z2 in A2.
        replace (V2 (y - T1) - V1 x) with ((V2 (y - T1) - 0) + (0 - V1 x)) by ring. eapply Rle_trans; [apply Rabs_triang|]. lra.
      * pose proof (pc_lip _ _ _ _ _ (PC2 (y - T1)) (x - T1) (y - T1) ltac:(lra) ltac:(lra)) as A2. eapply Rle_trans; [exact A2|]. right. ring.
    + intros t Ht. unfold V. destruct (Rle_dec t T1); [apply (pc_max _ _ _ _ _ PC1); lra|apply (pc_max _ _ _ _ _ (PC2 (t - T1))); lra].
    + intros x y lo hi H1 H2 HB. rewrite !WE. destruct (Rle_dec x T1) as [LX|LX], (Rle_dec y T1) as [LY|LY]; try lra.
      * apply (pc_int _ _ _ _ _ PC1); auto. intros t Ht. specialize (HB t Ht). unfold V in HB. destruct (Rle_dec t T1); [auto|lra].
      * pose proof (pc_int _ _ _ _ _ PC1 x T1 lo hi ltac:(lra) ltac:(lra)) as A1.
        pose proof (pc_int _ _ _ _ _ (PC2 (y - T1)) 0 (y - T1) lo hi ltac:(lra) ltac:(lra)) as A2.
        fold g in A1. cbv beta in A1, A2. fold (h (y - T1)) (h 0) in A2.
        assert (B1 : lo * (T1 - x) <= g T1 - g x <= hi * (T1 - x)).
        { apply A1. intros t Ht. specialize (HB t ltac:(lra)). unfold V in HB. destruct (Rle_dec t T1); [auto|lra]. }
        assert (B2 : lo * (y - T1 - 0) <= h (y - T1) - h 0 <= hi * (y - T1 - 0)).
        { apply A2. intros t Ht. specialize (HB (t + T1) ltac:(lra)). unfold V in HB. destruct (Rle_dec (t + T1) T1) as [L|L].
          - assert (t = 0) by lra. subst t. rewrite Rplus_0_l, ZT in HB. rewrite Z2. exact HB.
          - replace (t + T1 - T1) with t in HB by ring. exact HB. }
        rewrite JG in B1. lra.
      * pose proof (pc_int _ _ _ _ _ (PC2 (y - T1)) (x - T1) (y - T1) lo hi ltac:(lra) ltac:(lra)) as A2. cbv beta in A2.
        fold (h (y - T1)) (h (x - T1)) in A2. replace (y - x) with (y - T1 - (x - T1)) by ring. apply A2. intros t Ht. specialize (HB (t + T1) ltac:(lra)).
        unfold V in HB. destruct (Rle_dec (t + T1) T1); [lra|]. replace (t + T1 - T1) with t in HB by ring. exact HB.
Qed.

(** At the ticks. *)
Lemma some_below u a T W V x y q : paced u a T W V -> 0 <= x < y -> y <= T -> W y - W x < - (q * (y - x)) -> exists z, x <= z <= y /\ V z < - q.
Proof.
  intros PC H1 H2 HD. apply Classical_Prop.NNPP. intro NO.
  pose proof (pc_int _ _ _ _ _ PC x y (- q) (Rabs u) ltac:(lra) H2) as K.
  assert (K' : - q * (y - x) <= W y - W x <= Rabs u * (y - x)); [|lra]. apply K. intros t Ht. split.
  - destruct (Rle_lt_dec (- q) (V t)); auto. exfalso. apply NO. exists t. auto.
  - pose proof (pc_max _ _ _ _ _ PC t ltac:(lra)). pose proof (Rle_abs (V t)). pose proof (Rle_abs u). lra.
Qed.
Lemma paced_opp u a T W V : paced u a T W V -> paced u a T (fun t => - W t) (fun t => - V t).
Proof.
  intros [P1 P2 P3]. constructor.
  - intros x y H1 H2. replace (- V y - - V x) with (- (V y - V x)) by ring. rewrite Rabs_Ropp. auto.
  - intros t Ht. rewrite Rabs_Ropp. auto.
  - intros x y lo hi H1 H2 HB. specialize (P3 x y (- hi) (- lo) H1 H2 ltac:(intros t Ht; specialize (HB t Ht); lra)). lra.
Qed.
Lemma turns u a T W V x1 y1 x2 y2 e : paced u a T W V -> 0 < e -> 0 <= a -> 0 <= x1 < y1 -> y1 <= x2 < y2 -> y2 <= T ->
  W y1 - W x1 <= - e -> e <= W y2 - W x2 -> 4 * (9/10 * e) <= a * ((y2 - x1) * (y2 - x1)).
Proof.
  intros PC E0 A0 H1 H2 H3 D1 D2. set (e' := 9/10 * e).
  assert (I1 : 0 < / (y1 - x1)) by (apply Rinv_0_lt_compat; lra). assert (I2 : 0 < / (y2 - x2)) by (apply Rinv_0_lt_compat; lra).
  destruct (some_below _ _ _ _ _ x1 y1 (e' * / (y1 - x1)) PC H1 ltac:(lra)) as (z1 & Z1 & V1).
  { replace (e' * / (y1 - x1) * (y1 - x1)) with e' by (field; lra). unfold e'. lra. }
  destruct (some_below _ _ _ _ _ x2 y2 (e' * / (y2 - x2)) (paced_opp _ _ _ _ _ PC) ltac:(lra) ltac:(lra)) as (z2 & Z2 & V2).
  { cbv beta. replace (e' * / (y2 - x2) * (y2 - x2)) with e' by (field; lra). unfold e'. lra. }
  cbv beta in V2. pose proof (pc_lip _ _ _ _ _ PC z1 z2 ltac:(lra) ltac:(lra)) as LP. pose proof (Rle_abs (V z2 - V z1)) as AB.
  set (m1 := y1 - x1) in *. set (m2 := y2 - x2) in *. set (L := y2 - x1). assert (ML : m1 + m2 <= L) by (unfold m1, m2, L; lra).
  assert (M1 : 0 < m1) by (unfold m1; lra). assert (M2 : 0 < m2) by (unfold m2; lra).
  assert (B : e' * (/ m1 + / m2) <= a * L).
  { apply Rle_trans with (a * (z2 - z1)); [lra|]. apply Rmult_le_compat_l; [auto|unfold L; lra]. }
  assert (C : 4 <= (/ m1 + / m2) * L).
  { apply Rle_trans with ((/ m1 + / m2) * (m1 + m2)); [|apply Rmult_le_compat_l; lra].
    replace ((/ m1 + / m2) * (m1 + m2)) with (2 + m1 * / m2 + m2 * / m1) by (field; lra).
    assert (0 <= (m1 - m2) * (m1 - m2) * / (m1 * m2)).
    { apply Rmult_le_pos; [apply Rle_0_sqr|apply Rlt_le, Rinv_0_lt_compat, Rmult_lt_0_compat; auto]. }
    replace ((m1 - m2) * (m1 - m2) * / (m1 * m2)) with (m1 * / m2 + m2 * / m1 - 2) in H by (field; lra). lra. }
  assert (0 < L) by lra. assert (0 < e') by (unfold e'; lra).
  apply Rle_trans with (e' * ((/ m1 + / m2) * L)); [rewrite (Rmult_comm 4); apply Rmult_le_compat_l; lra|].
  replace (e' * ((/ m1 + / m2) * L)) with (e' * (/ m1 + / m2) * L) by ring. replace (a * (L * L)) with (a * L * L) by ring.
  apply Rmult_le_compat_r; lra.
Qed.
