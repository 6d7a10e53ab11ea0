(** Planning of a motion over the reals: C28. *)
Require Import Reals ZArith NArith Bool Lra Lia.
From Verif Require Import Base Num NumR MotionModel ProfileSpec ProfileProofs.
Open Scope R_scope.

Lemma rleb_if {T} a b (x y : T) : (if rleb a b then x else y) = if Rle_dec a b then x else y.
Proof. unfold rleb. destruct (Rle_dec a b); reflexivity. Qed.
Lemma xleb_XF a b : xleb (XF a) (XF b) = rleb a b.
Proof.
  unfold xleb, xltb, xeqb, rltb, reqb, rleb.
  destruct (Rlt_dec a b), (Req_EM_T a b), (Rle_dec a b); cbn; auto; lra.
Qed.

(** *** piecewise functions with an arbitrary test *)
Definition tests (P : R -> bool) b := (forall x, x < b -> P x = true) /\ (forall x, b < x -> P x = false).

Lemma cont_pw P f1 f2 b : tests P b -> f1 b = f2 b -> continuity f1 -> continuity f2 ->
  continuity (fun x => if P x then f1 x else f2 x).
Proof.
  intros [T1 T2] E H1 H2 t. destruct (Rtotal_order t b) as [L|[->|L]].
  - apply (cont_local _ f1 _ (b - t)); [lra| |apply H1].
    intros x Hx. apply Rabs_def2 in Hx. rewrite T1 by lra. auto.
  - apply (cont_glue P); auto.
  - apply (cont_local _ f2 _ (t - b)); [lra| |apply H2].
    intros x Hx. apply Rabs_def2 in Hx. rewrite T2 by lra. auto.
Qed.
Lemma dlim_pw P f1 f2 (d1 d2 : R -> R) b : tests P b -> f1 b = f2 b -> d1 b = d2 b ->
  (forall t, derivable_pt_lim f1 t (d1 t)) -> (forall t, derivable_pt_lim f2 t (d2 t)) ->
  forall t, derivable_pt_lim (fun x => if P x then f1 x else f2 x) t (if P t then d1 t else d2 t).
Proof.
  intros [T1 T2] E Ed H1 H2 t. destruct (Rtotal_order t b) as [L|[->|L]].
  - rewrite T1 by auto. apply (dlim_local _ f1 _ _ (b - t)); [lra| |auto].
    intros x Hx. apply Rabs_def2 in Hx. rewrite T1 by lra. auto.
  - replace (if P b then d1 b else d2 b) with (d1 b) by (destruct (P b); auto).
    apply (dlim_glue P); auto. rewrite Ed. auto.
  - rewrite T2 by auto. apply (dlim_local _ f2 _ _ (t - b)); [lra| |auto].
    intros x Hx. apply Rabs_def2 in Hx. rewrite T2 by lra. auto.
Qed.
Lemma dlim_shift c k f t l : derivable_pt_lim f (t - k) l -> derivable_pt_lim (fun x => c + f (x - k)) t l.
Proof.
  intros H eps He. destruct (H eps He) as (del & D). exists del. intros h h0 Hh.
  replace ((c + f (t + h - k) - (c + f (t - k))) / h) with ((f (t - k + h) - f (t - k)) / h); [apply D; auto|].
  replace (t + h - k) with (t - k + h) by ring. f_equal. ring.
Qed.
Lemma cont_shift k f : continuity f -> continuity (fun x => f (x - k)).
Proof.
  intros H t eps He. destruct (H (t - k) eps He) as (del & P & D). exists del. split; auto.
  intros x (X1 & X2). apply D. cbn in *. unfold R_dist in *. split.
  - unfold D_x, no_cond in *. split; [auto|]. destruct X1 as [_ X1]. intro; apply X1; lra.
  - replace (x - k - (t - k)) with (x - t) by ring. auto.
Qed.
Lemma cont_const c : continuity (fun _ => c).
Proof. intro t. apply continuity_pt_const. intros x y; auto. Qed.

Lemma lip v (acc : R -> R) a d x y : x <= y ->
  (forall t, x < t < y -> derivable_pt_lim v t (acc t)) -> (forall t, x <= t <= y -> continuity_pt v t) ->
  (forall t, x < t < y -> d <= acc t <= a) -> d * (y - x) <= v y - v x <= a * (y - x).
Proof.
  intros Hxy HD HC HB. destruct (Req_EM_T x y) as [->|NE]; [rewrite !Rminus_diag_eq by auto; lra|].
  assert (L : x < y) by lra.
  assert (pv : forall c, x < c < y -> derivable_pt v c) by (intros c Hc; exists (acc c); apply HD; auto).
  assert (pid : forall c, x < c < y -> derivable_pt id c) by (intros c _; apply derivable_pt_id).
  destruct (MVT v id x y pv pid L HC) as (c & Hc & E).
  { intros; apply derivable_continuous_pt, derivable_pt_id. }
  assert (D1 : derive_pt v c (pv c Hc) = acc c) by (apply derive_pt_eq_0; apply HD; auto).
  assert (D2 : derive_pt id c (pid c Hc) = 1) by (apply derive_pt_eq_0; apply derivable_pt_lim_id).
  rewrite D1, D2 in E. unfold id in E. specialize (HB c Hc).
  assert (d * (y - x) <= acc c * (y - x) <= a * (y - x)) by (split; apply Rmult_le_compat_r; lra). lra.
Qed.

Lemma decreasing f (f' : R -> R) x y : x <= y ->
  (forall t, x < t < y -> derivable_pt_lim f t (f' t)) -> (forall t, x <= t <= y -> continuity_pt f t) ->
  (forall t, x < t < y -> f' t <= 0) -> f y <= f x.
Proof.
  intros Hxy HD HC HB. destruct (Req_EM_T x y) as [->|NE]; [lra|].
  assert (L : x < y) by lra.
  assert (pv : forall c, x < c < y -> derivable_pt f c) by (intros c Hc; exists (f' c); apply HD; auto).
  assert (pid : forall c, x < c < y -> derivable_pt id c) by (intros c _; apply derivable_pt_id).
  destruct (MVT f id x y pv pid L HC) as (c & Hc & E).
  { intros; apply derivable_continuous_pt, derivable_pt_id. }
  assert (D1 : derive_pt f c (pv c Hc) = f' c) by (apply derive_pt_eq_0; apply HD; auto).
  assert (D2 : derive_pt id c (pid c Hc) = 1) by (apply derive_pt_eq_0; apply derivable_pt_lim_id).
  rewrite D1, D2 in E. unfold id in E. specialize (HB c Hc).
  assert (0 <= - f' c * (y - x)) by (apply Rmult_le_pos; lra). lra.
Qed.

(** v*v - 2*k*s has derivative 2*v*(acc - k) *)
Lemma energy_dlim s v acc k t : derivable_pt_lim s t (v t) -> derivable_pt_lim v t (acc t) ->
  derivable_pt_lim (fun x => v x * v x - 2 * k * s x) t (2 * v t * (acc t - k)).
Proof.
  intros H1 H2. replace (2 * v t * (acc t - k)) with ((acc t * v t + v t * acc t) - 2 * k * v t) by ring.
  apply (derivable_pt_lim_minus (fun x => v x * v x) (fun x => 2 * k * s x)).
  - apply (derivable_pt_lim_mult v v); auto.
  - apply (derivable_pt_lim_scal s (2 * k)); auto.
Qed.
Lemma energy_cont s v k t : continuity_pt s t -> continuity_pt v t ->
  continuity_pt (fun x => v x * v x - 2 * k * s x) t.
Proof.
  intros H1 H2. apply (continuity_pt_minus (fun x => v x * v x) (fun x => 2 * k * s x)).
  - apply (continuity_pt_mult v v); auto.
  - apply (continuity_pt_scal s (2 * k)); auto.
Qed.

Lemma energy s v acc a d x y : x <= y ->
  (forall t, x <= t <= y -> derivable_pt_lim s t (v t)) ->
  (forall t, x < t < y -> derivable_pt_lim v t (acc t)) ->
  (forall t, x <= t <= y -> continuity_pt v t) ->
  (forall t, x <= t <= y -> 0 <= v t) -> (forall t, x < t < y -> d <= acc t <= a) ->
  2 * d * (s y - s x) <= v y * v y - v x * v x <= 2 * a * (s y - s x).
Proof.
  intros Hxy DS DV CV P B. split.
  - enough (- (v y * v y - 2 * d * s y) <= - (v x * v x - 2 * d * s x)) by lra.
    apply (decreasing (fun t => - (v t * v t - 2 * d * s t)) (fun t => - (2 * v t * (acc t - d)))); auto.
    + intros t Ht. apply (derivable_pt_lim_opp (fun t => v t * v t - 2 * d * s t)). apply energy_dlim; [apply DS; lra|apply DV; lra].
    + intros t Ht. apply (continuity_pt_opp (fun t => v t * v t - 2 * d * s t)). apply energy_cont; [eapply cont_of_dlim; apply DS; lra|auto].
    + intros t Ht. specialize (B t Ht). specialize (P t ltac:(lra)).
      assert (0 <= v t * (acc t - d)) by (apply Rmult_le_pos; lra). lra.
  - enough (v y * v y - 2 * a * s y <= v x * v x - 2 * a * s x) by lra.
    apply (decreasing (fun t => v t * v t - 2 * a * s t) (fun t => 2 * v t * (acc t - a))); auto.
    + intros t Ht. apply energy_dlim; [apply DS; lra|apply DV; lra].
    + intros t Ht. apply energy_cont; [eapply cont_of_dlim; apply DS; lra|auto].
    + intros t Ht. specialize (B t Ht). specialize (P t ltac:(lra)).
      assert (0 <= v t * (a - acc t)) by (apply Rmult_le_pos; lra). lra.
Qed.

(** *** Three phases *)
Section Phases.
Variables (o : profileOrder) (v0 vM v1 a d j t0 s0 T2 : R) (r1 r3 : ramp).
Hypothesis Hv0 : 0 <= v0. Hypothesis HvM : 0 <= vM. Hypothesis Hv1 : 0 <= v1.
Hypothesis Ha : 0 < a. Hypothesis Hd : d < 0. Hypothesis Hj : 0 < j.
Hypothesis G1 : r_good o v0 vM a d j r1. Hypothesis G3 : r_good o vM v1 a d j r3.
Hypothesis HT2 : 0 <= T2.
Let T1 := r_T r1. Let T3 := r_T r3.

Definition ph_s (t : R) : R :=
  if rleb t t0 then s0
  else if rleb (t - t0) T1 then s0 + r_s r1 (t - t0)
  else if rleb (t - t0 - T1) T2 then s0 + r_L r1 + vM * (t - t0 - T1)
  else s0 + r_L r1 + vM * T2 + r_s r3 (t - t0 - T1 - T2).
Definition ph_v (t : R) : R :=
  if rleb t t0 then r_v r1 0
  else if rleb (t - t0) T1 then r_v r1 (t - t0)
  else if rleb (t - t0 - T1) T2 then vM
  else r_v r3 (t - t0 - T1 - T2).
Definition ph_a (t : R) : R :=
  if rleb t t0 then r_a r1 0
  else if rleb (t - t0) T1 then r_a r1 (t - t0)
  else if rleb (t - t0 - T1) T2 then 0
  else r_a r3 (t - t0 - T1 - T2).

Let S1 : ramp_spec o v0 vM a d j T1 (r_L r1) (r_s r1) (r_v r1) (r_a r1) := r_spec o v0 vM a d j r1 Hv0 HvM Ha Hd Hj G1.
Let S3 : ramp_spec o vM v1 a d j T3 (r_L r3) (r_s r3) (r_v r3) (r_a r3) := r_spec o vM v1 a d j r3 HvM Hv1 Ha Hd Hj G3.

Lemma good_eq r x y : r_good o x y a d j r -> r_v1 r = r_v0 r + r_J r * r_d1 r * r_d1 r + r_A r * r_d2 r /\ 0 <= r_d2 r.
Proof. intros (E0 & E1 & D1 & D2 & EV & _). split; congruence. Qed.

Lemma tests_le k b : tests (fun x => rleb (x - k) b) (k + b).
Proof. split; intros x Hx; unfold rleb; destruct (Rle_dec (x - k) b); auto; lra. Qed.
Lemma tests_le2 k k' b : tests (fun x => rleb (x - k - k') b) (k + k' + b).
Proof. split; intros x Hx; unfold rleb; destruct (Rle_dec (x - k - k') b); auto; lra. Qed.
Lemma tests_le0 b : tests (fun x => rleb x b) b.
Proof. split; intros x Hx; unfold rleb; destruct (Rle_dec x b); auto; lra. Qed.

Lemma ph_v_inner_cont : continuity (fun t =>
  if rleb (t - t0) T1 then r_v r1 (t - t0)
  else if rleb (t - t0 - T1) T2 then vM else r_v r3 (t - t0 - T1 - T2)).
Proof.
  destruct (rs_end _ _ _ _ _ _ _ _ _ _ _ S1) as [_ E1]. destruct (rs_start _ _ _ _ _ _ _ _ _ _ _ S3) as [_ E3].
  destruct (good_eq _ _ _ G1) as [Q1 Q1']. destruct (good_eq _ _ _ G3) as [Q3 Q3'].
  apply (cont_pw (fun t => rleb (t - t0) T1) (fun t => r_v r1 (t - t0))
     (fun t => if rleb (t - t0 - T1) T2 then vM else r_v r3 (t - t0 - T1 - T2)) (t0 + T1)).
  - apply tests_le.
  - replace (t0 + T1 - t0) with T1 by ring. rewrite E1. replace (T1 - T1) with 0 by ring.
    rewrite rleb_if. destruct (Rle_dec 0 T2); [auto|lra].
  - apply (cont_shift t0 (r_v r1)). intro t. apply r_v_cont; auto.
  - apply (cont_pw (fun t => rleb (t - t0 - T1) T2) (fun _ => vM) (fun t => r_v r3 (t - t0 - T1 - T2)) (t0 + T1 + T2)).
    + apply tests_le2.
    + replace (t0 + T1 + T2 - t0 - T1 - T2) with 0 by ring. auto.
    + apply cont_const.
    + apply (cont_shift t0 (fun t => r_v r3 (t - T1 - T2))). apply (cont_shift T1 (fun t => r_v r3 (t - T2))).
      apply (cont_shift T2 (r_v r3)). intro t. apply r_v_cont; auto.
Qed.

Lemma ph_v_cont : continuity ph_v.
Proof.
  destruct (rs_T _ _ _ _ _ _ _ _ _ _ _ S1) as [P|P].
  - unfold ph_v. apply (cont_pw (fun t => rleb t t0) (fun _ => r_v r1 0)
      (fun t => if rleb (t - t0) T1 then r_v r1 (t - t0) else if rleb (t - t0 - T1) T2 then vM else r_v r3 (t - t0 - T1 - T2)) t0).
    + apply tests_le0.
    + replace (t0 - t0) with 0 by ring. rewrite rleb_if. destruct (Rle_dec 0 T1); [auto|lra].
    + apply cont_const.
    + apply ph_v_inner_cont.
  - unfold ph_v. apply (cont_pw (fun t => rleb t t0) (fun _ => r_v r1 0)
      (fun t => if rleb (t - t0) T1 then r_v r1 (t - t0) else if rleb (t - t0 - T1) T2 then vM else r_v r3 (t - t0 - T1 - T2)) t0).
    + apply tests_le0.
    + replace (t0 - t0) with 0 by ring. rewrite rleb_if. destruct (Rle_dec 0 T1); [auto|lra].
    + apply cont_const.
    + apply ph_v_inner_cont.
Qed.

Definition ph_s' (t : R) : R :=
  if rleb (t - t0) T1 then s0 + r_s r1 (t - t0)
  else if rleb (t - t0 - T1) T2 then s0 + r_L r1 + vM * (t - t0 - T1)
  else s0 + r_L r1 + vM * T2 + r_s r3 (t - t0 - T1 - T2).

Lemma ph_s'_dlim t : derivable_pt_lim ph_s' t
  (if rleb (t - t0) T1 then r_v r1 (t - t0)
   else if rleb (t - t0 - T1) T2 then vM else r_v r3 (t - t0 - T1 - T2)).
Proof.
  destruct (rs_end _ _ _ _ _ _ _ _ _ _ _ S1) as [E1 E1']. destruct (rs_start _ _ _ _ _ _ _ _ _ _ _ S3) as [E3 E3'].
  destruct (good_eq _ _ _ G1) as [Q1 Q1']. destruct (good_eq _ _ _ G3) as [Q3 Q3'].
  unfold ph_s'.
  apply (dlim_pw (fun t => rleb (t - t0) T1) (fun t => s0 + r_s r1 (t - t0))
     (fun t => if rleb (t - t0 - T1) T2 then s0 + r_L r1 + vM * (t - t0 - T1) else s0 + r_L r1 + vM * T2 + r_s r3 (t - t0 - T1 - T2))
     (fun t => r_v r1 (t - t0)) (fun t => if rleb (t - t0 - T1) T2 then vM else r_v r3 (t - t0 - T1 - T2)) (t0 + T1)).
  - apply tests_le.
  - replace (t0 + T1 - t0) with T1 by ring. rewrite E1. replace (T1 - T1) with 0 by ring.
    rewrite rleb_if. destruct (Rle_dec 0 T2); [ring|lra].
  - replace (t0 + T1 - t0) with T1 by ring. rewrite E1'. replace (T1 - T1) with 0 by ring.
    rewrite rleb_if. destruct (Rle_dec 0 T2); [auto|lra].
  - intro x. apply dlim_shift. apply r_s_dlim; auto.
  - apply (dlim_pw (fun t => rleb (t - t0 - T1) T2) (fun t => s0 + r_L r1 + vM * (t - t0 - T1))
       (fun t => s0 + r_L r1 + vM * T2 + r_s r3 (t - t0 - T1 - T2))
       (fun _ => vM) (fun t => r_v r3 (t - t0 - T1 - T2)) (t0 + T1 + T2)).
    + apply tests_le2.
    + replace (t0 + T1 + T2 - t0 - T1 - T2) with 0 by ring. rewrite E3. ring.
    + replace (t0 + T1 + T2 - t0 - T1 - T2) with 0 by ring. auto.
    + intro x. eapply dlim_ext; [| |apply (dlim_poly (s0 + r_L r1 - vM * t0 - vM * T1) vM 0 0)]; intros; cbv beta; ring.
    + intro x. eapply dlim_ext; [| |apply (dlim_shift (s0 + r_L r1 + vM * T2) (t0 + T1 + T2) (r_s r3) x (r_v r3 (x - t0 - T1 - T2)))].
      * intro y. cbv beta. do 2 f_equal. ring.
      * reflexivity.
      * replace (x - t0 - T1 - T2) with (x - (t0 + T1 + T2)) by ring. apply r_s_dlim; auto.
Qed.

Lemma ph_plan vm : Rmax v0 (Rmax vM v1) <= vm -> 
  plan_spec v0 v1 a d vm t0 s0 (t0 + T1 + T2 + T3) (s0 + r_L r1 + vM * T2 + r_L r3) ph_s ph_v ph_a.
Proof.
  intro HM. pose proof (Rmax_l v0 (Rmax vM v1)). pose proof (Rmax_r v0 (Rmax vM v1)).
  pose proof (Rmax_l vM v1). pose proof (Rmax_r vM v1).
  pose proof (rs_T _ _ _ _ _ _ _ _ _ _ _ S1) as P1. pose proof (rs_T _ _ _ _ _ _ _ _ _ _ _ S3) as P3.
  destruct (rs_end _ _ _ _ _ _ _ _ _ _ _ S1) as [E1 E1']. destruct (rs_start _ _ _ _ _ _ _ _ _ _ _ S3) as [E3 E3'].
  destruct (rs_start _ _ _ _ _ _ _ _ _ _ _ S1) as [B1 B1']. destruct (rs_end _ _ _ _ _ _ _ _ _ _ _ S3) as [F3 F3'].
  assert (VM1 : forall t, 0 <= t <= T1 -> 0 <= r_v r1 t <= vm).
  { intros t Ht. pose proof (rs_vbound _ _ _ _ _ _ _ _ _ _ _ S1 t Ht).
    pose proof (Rmin_glb v0 vM 0 ltac:(lra) ltac:(lra)). pose proof (Rmax_lub v0 vM vm ltac:(lra) ltac:(lra)). lra. }
  assert (VM3 : forall t, 0 <= t <= T3 -> 0 <= r_v r3 t <= vm).
  { intros t Ht. pose proof (rs_vbound _ _ _ _ _ _ _ _ _ _ _ S3 t Ht).
    pose proof (Rmin_glb vM v1 0 ltac:(lra) ltac:(lra)). pose proof (Rmax_lub vM v1 vm ltac:(lra) ltac:(lra)). lra. }
  (* values at the ends *)
  assert (VE : ph_v (t0 + T1 + T2 + T3) = v1 /\ ph_s (t0 + T1 + T2 + T3) = s0 + r_L r1 + vM * T2 + r_L r3).
  { unfold ph_v, ph_s. rewrite !rleb_if.
    destruct (Rle_dec (t0 + T1 + T2 + T3) t0) as [C|C].
    - assert (T1 = 0 /\ T2 = 0 /\ T3 = 0) as (Z1 & Z2 & Z3) by lra. rewrite Z1 in *. rewrite Z2. rewrite Z3 in *.
      split; [congruence|]. rewrite <- E1, B1, <- F3, E3. ring.
    - rewrite ?rleb_if. destruct (Rle_dec (t0 + T1 + T2 + T3 - t0) T1) as [C1|C1].
      + assert (T2 = 0 /\ T3 = 0) as (Z2 & Z3) by lra. rewrite Z2, Z3 in *.
        replace (t0 + T1 + 0 + 0 - t0) with T1 by ring. rewrite E1, E1', <- F3, E3. split; [congruence|ring].
      + rewrite ?rleb_if. destruct (Rle_dec (t0 + T1 + T2 + T3 - t0 - T1) T2) as [C2|C2].
        * assert (T3 = 0) as Z3 by lra. rewrite Z3 in *. rewrite <- F3, E3. split; [congruence|ring].
        * replace (t0 + T1 + T2 + T3 - t0 - T1 - T2) with T3 by ring. rewrite F3, F3'. split; ring. }
  assert (V0 : ph_v t0 = v0 /\ ph_s t0 = s0).
  { unfold ph_v, ph_s. rewrite !rleb_if. destruct (Rle_dec t0 t0); [auto|lra]. }
  (* value on each phase *)
  assert (W1 : forall t, t0 <= t <= t0 + T1 -> ph_v t = r_v r1 (t - t0)).
  { intros t Ht. unfold ph_v. rewrite !rleb_if. destruct (Rle_dec t t0).
    - replace (t - t0) with 0 by lra. auto.
    - destruct (Rle_dec (t - t0) T1); [auto|lra]. }
  assert (W2 : forall t, t0 + T1 <= t <= t0 + T1 + T2 -> ph_v t = vM).
  { intros t Ht. destruct (Req_EM_T t (t0 + T1)) as [->|].
    - rewrite W1 by lra. replace (t0 + T1 - t0) with T1 by ring. auto.
    - unfold ph_v. rewrite !rleb_if. destruct (Rle_dec t t0); [lra|]. destruct (Rle_dec (t - t0) T1); [lra|].
      destruct (Rle_dec (t - t0 - T1) T2); [auto|lra]. }
  assert (W3 : forall t, t0 + T1 + T2 <= t <= t0 + T1 + T2 + T3 -> ph_v t = r_v r3 (t - (t0 + T1 + T2))).
  { intros t Ht. destruct (Req_EM_T t (t0 + T1 + T2)) as [->|].
    - rewrite W2 by lra. replace (t0 + T1 + T2 - (t0 + T1 + T2)) with 0 by ring. auto.
    - unfold ph_v. rewrite !rleb_if. destruct (Rle_dec t t0); [lra|]. destruct (Rle_dec (t - t0) T1); [lra|].
      destruct (Rle_dec (t - t0 - T1) T2); [lra|]. f_equal. ring. }
  constructor.
  - lra.
  - tauto.
  - tauto.
  - intros t Ht. unfold ph_v. rewrite rleb_if. destruct (Rle_dec t t0); [lra|].
    apply (dlim_local ph_s ph_s' t _ (t - t0)); [lra| |apply ph_s'_dlim].
    intros x Hx. apply Rabs_def2 in Hx. unfold ph_s. rewrite (rleb_if x t0). destruct (Rle_dec x t0); [lra|reflexivity].
  - intros t Ht. revert t Ht. enough (continuity ph_s) by (intros t _; auto).
    apply (cont_pw (fun t => rleb t t0) (fun _ => s0) ph_s' t0).
    + apply tests_le0.
    + unfold ph_s'. replace (t0 - t0) with 0 by ring. rewrite rleb_if. destruct (Rle_dec 0 T1); [|lra]. rewrite B1. ring.
    + apply cont_const.
    + intro t. eapply cont_of_dlim. apply ph_s'_dlim.
  - intros t _. apply ph_v_cont.
  - intros t Ht. destruct (Rle_dec t (t0 + T1)); [rewrite W1 by lra; apply VM1; lra|].
    destruct (Rle_dec t (t0 + T1 + T2)); [rewrite W2 by lra; lra|]. rewrite W3 by lra. apply VM3; lra.
  - (* speed changes *)
    assert (L1 : forall x y, t0 <= x <= y -> y <= t0 + T1 -> d * (y - x) <= ph_v y - ph_v x <= a * (y - x)).
    { intros x y Hx Hy. rewrite !W1 by lra. replace (y - x) with ((y - t0) - (x - t0)) by ring.
      apply (lip (r_v r1) (r_a r1)); [lra| | |]; intros t Ht.
      - apply (rs_acc _ _ _ _ _ _ _ _ _ _ _ S1); lra.
      - apply (rs_cont _ _ _ _ _ _ _ _ _ _ _ S1); lra.
      - apply (rs_abound _ _ _ _ _ _ _ _ _ _ _ S1); lra. }
    assert (L2 : forall x y, t0 + T1 <= x <= y -> y <= t0 + T1 + T2 -> d * (y - x) <= ph_v y - ph_v x <= a * (y - x)).
    { intros x y Hx Hy. rewrite !W2 by lra.
      assert (0 <= a * (y - x)) by (apply Rmult_le_pos; lra). assert (0 <= - d * (y - x)) by (apply Rmult_le_pos; lra). lra. }
    assert (L3 : forall x y, t0 + T1 + T2 <= x <= y -> y <= t0 + T1 + T2 + T3 -> d * (y - x) <= ph_v y - ph_v x <= a * (y - x)).
    { intros x y Hx Hy. rewrite !W3 by lra. replace (y - x) with ((y - (t0 + T1 + T2)) - (x - (t0 + T1 + T2))) by ring.
      apply (lip (r_v r3) (r_a r3)); [lra| | |]; intros t Ht.
      - apply (rs_acc _ _ _ _ _ _ _ _ _ _ _ S3); lra.
      - apply (rs_cont _ _ _ _ _ _ _ _ _ _ _ S3); lra.
      - apply (rs_abound _ _ _ _ _ _ _ _ _ _ _ S3); lra. }
    (* chain *)
    assert (CH : forall f b lo hi, (forall x y, lo <= x <= y -> y <= b -> d * (y - x) <= f y - f x <= a * (y - x)) ->
       (forall x y, b <= x <= y -> y <= hi -> d * (y - x) <= f y - f x <= a * (y - x)) ->
       forall x y, lo <= x <= y -> y <= hi -> d * (y - x) <= f y - f x <= a * (y - x)).
    { intros f b lo hi F1 F2 x y Hx Hy. destruct (Rle_dec y b); [apply F1; lra|]. destruct (Rle_dec b x); [apply F2; lra|].
      specialize (F1 x b ltac:(lra) ltac:(lra)). specialize (F2 b y ltac:(lra) ltac:(lra)). lra. }
    apply (CH ph_v (t0 + T1) t0); [exact L1|]. apply (CH ph_v (t0 + T1 + T2) (t0 + T1)); auto.
  - (* energy *)
    assert (X1 : forall t, t0 <= t <= t0 + T1 -> ph_s t = s0 + r_s r1 (t - t0)).
    { intros t Ht. unfold ph_s. rewrite !rleb_if. destruct (Rle_dec t t0).
      - replace (t - t0) with 0 by lra. rewrite B1. ring.
      - destruct (Rle_dec (t - t0) T1); [auto|lra]. }
    assert (X2 : forall t, t0 + T1 <= t <= t0 + T1 + T2 -> ph_s t = s0 + r_L r1 + vM * (t - t0 - T1)).
    { intros t Ht. destruct (Req_EM_T t (t0 + T1)) as [->|].
      - rewrite X1 by lra. replace (t0 + T1 - t0) with T1 by ring. rewrite E1. ring.
      - unfold ph_s. rewrite !rleb_if. destruct (Rle_dec t t0); [lra|]. destruct (Rle_dec (t - t0) T1); [lra|].
        destruct (Rle_dec (t - t0 - T1) T2); [auto|lra]. }
    assert (X3 : forall t, t0 + T1 + T2 <= t <= t0 + T1 + T2 + T3 -> ph_s t = s0 + r_L r1 + vM * T2 + r_s r3 (t - (t0 + T1 + T2))).
    { intros t Ht. destruct (Req_EM_T t (t0 + T1 + T2)) as [->|].
      - rewrite X2 by lra. replace (t0 + T1 + T2 - (t0 + T1 + T2)) with 0 by ring. rewrite E3. ring.
      - unfold ph_s. rewrite !rleb_if. destruct (Rle_dec t t0); [lra|]. destruct (Rle_dec (t - t0) T1); [lra|].
        destruct (Rle_dec (t - t0 - T1) T2); [lra|]. f_equal. f_equal. ring. }
    assert (L1 : forall x y, t0 <= x <= y -> y <= t0 + T1 -> 2 * d * (ph_s y - ph_s x) <= ph_v y * ph_v y - ph_v x * ph_v x <= 2 * a * (ph_s y - ph_s x)).
    { intros x y Hx Hy. rewrite !W1, !X1 by lra. 
      replace (s0 + r_s r1 (y - t0) - (s0 + r_s r1 (x - t0))) with (r_s r1 (y - t0) - r_s r1 (x - t0)) by ring.
      apply (energy (r_s r1) (r_v r1) (r_a r1)); [lra| | | | |]; intros t Ht.
      - apply (rs_speed _ _ _ _ _ _ _ _ _ _ _ S1); lra.
      - apply (rs_acc _ _ _ _ _ _ _ _ _ _ _ S1); lra.
      - apply (rs_cont _ _ _ _ _ _ _ _ _ _ _ S1); lra.
      - apply VM1; lra.
      - apply (rs_abound _ _ _ _ _ _ _ _ _ _ _ S1); lra. }
    assert (L2 : forall x y, t0 + T1 <= x <= y -> y <= t0 + T1 + T2 -> 2 * d * (ph_s y - ph_s x) <= ph_v y * ph_v y - ph_v x * ph_v x <= 2 * a * (ph_s y - ph_s x)).
    { intros x y Hx Hy. rewrite !W2, !X2 by lra.
      replace (s0 + r_L r1 + vM * (y - t0 - T1) - (s0 + r_L r1 + vM * (x - t0 - T1))) with (vM * (y - x)) by ring.
      assert (0 <= vM * (y - x)) by (apply Rmult_le_pos; lra).
      assert (0 <= a * (vM * (y - x))) by (apply Rmult_le_pos; lra). assert (0 <= - d * (vM * (y - x))) by (apply Rmult_le_pos; lra). lra. }
    assert (L3 : forall x y, t0 + T1 + T2 <= x <= y -> y <= t0 + T1 + T2 + T3 -> 2 * d * (ph_s y - ph_s x) <= ph_v y * ph_v y - ph_v x * ph_v x <= 2 * a * (ph_s y - ph_s x)).
    { intros x y Hx Hy. rewrite !W3, !X3 by lra.
      match goal with |- 2 * d * (?u + ?p - (?u + ?q)) <= _ <= _ => replace (u + p - (u + q)) with (p - q) by ring end.
      apply (energy (r_s r3) (r_v r3) (r_a r3)); [lra| | | | |]; intros t Ht.
      - apply (rs_speed _ _ _ _ _ _ _ _ _ _ _ S3); lra.
      - apply (rs_acc _ _ _ _ _ _ _ _ _ _ _ S3); lra.
      - apply (rs_cont _ _ _ _ _ _ _ _ _ _ _ S3); lra.
      - apply VM3; lra.
      - apply (rs_abound _ _ _ _ _ _ _ _ _ _ _ S3); lra. }
    assert (CH : forall (f g : R -> R) b lo hi, (forall x y, lo <= x <= y -> y <= b -> 2 * d * (g y - g x) <= f y * f y - f x * f x <= 2 * a * (g y - g x)) ->
       (forall x y, b <= x <= y -> y <= hi -> 2 * d * (g y - g x) <= f y * f y - f x * f x <= 2 * a * (g y - g x)) ->
       forall x y, lo <= x <= y -> y <= hi -> 2 * d * (g y - g x) <= f y * f y - f x * f x <= 2 * a * (g y - g x)).
    { intros f g b lo hi F1 F2 x y Hx Hy. destruct (Rle_dec y b); [apply F1; lra|]. destruct (Rle_dec b x); [apply F2; lra|].
      specialize (F1 x b ltac:(lra) ltac:(lra)). specialize (F2 b y ltac:(lra) ltac:(lra)). lra. }
    apply (CH ph_v ph_s (t0 + T1) t0); [exact L1|]. apply (CH ph_v ph_s (t0 + T1 + T2) (t0 + T1)); auto.
  - intros t Ht. unfold ph_a. rewrite !rleb_if. destruct (Rle_dec t t0); [lra|].
    destruct (Rle_dec (t - t0) T1); [apply (rs_abound _ _ _ _ _ _ _ _ _ _ _ S1); lra|].
    destruct (Rle_dec (t - t0 - T1) T2); [lra|apply (rs_abound _ _ _ _ _ _ _ _ _ _ _ S3); lra].
Qed.
End Phases.

(** *** The model's planning *)
Record phases (p : profile xr) (o : profileOrder) (v0 vM v1 a d j t0 s0 L2 : R) (r1 r3 : ramp) : Prop := {
  ph_l : matches (p_left p) r1; ph_r : matches (p_right p) r3;
  ph_g1 : r_good o v0 vM a d j r1; ph_g3 : r_good o vM v1 a d j r3;
  ph_mid : p_mid p = mkCR (XF vM) (XF L2) (xdiv (XF L2) (XF vM));
  ph_done : p_doneLength p = XF s0 /\ p_doneDuration p = XF t0 }.

Lemma flen_first r v0 v1 a d j : 0 < a -> d < 0 -> r_good firstOrder v0 v1 a d j r -> r_L r = flen a d v0 v1.
Proof.
  intros Ha Hd (E0 & E1 & D1 & D2 & EV & SG & _ & FO). destruct (FO eq_refl) as [Z Q]. unfold r_L, r_T, flen.
  rewrite E0, E1, Z, Q. destruct (Rlt_dec v0 v1); field; lra.
Qed.

Lemma ramps_ok p vM o v0 v1 a d j : ad_vStart (p_left p) = XF v0 -> ad_vEnd (p_right p) = XF v1 ->
  p_aMax p = XF a -> p_dMax p = XF d -> p_jMax p = XF j -> 0 < a -> d < 0 -> 0 < j -> 0 <= v0 -> 0 <= v1 -> 0 <= vM ->
  exists r1 r3, matches (p_left (p_ramps x_num p (XF vM) o)) r1 /\ matches (p_right (p_ramps x_num p (XF vM) o)) r3 /\
    r_good o v0 vM a d j r1 /\ r_good o vM v1 a d j r3.
Proof.
  intros E0 E1 EA ED EJ Ha Hd Hj H0 H1 HM. unfold p_ramps. cbn [p_left p_right].
  destruct (calc_ramp o (ad_setvEnd (ad_setMax (p_left p) (p_aMax p) (p_dMax p) (p_jMax p)) (XF vM)) v0 vM a d j)
    as (r1 & M1 & G1); auto.
  destruct (calc_ramp o (ad_setvStart (ad_setMax (p_right p) (p_aMax p) (p_dMax p) (p_jMax p)) (XF vM)) vM v1 a d j)
    as (r3 & M3 & G3); auto.
  exists r1, r3. auto.
Qed.

(** Once the plan (cruise speed [vM]) is chosen and constant acceleration fits. *)
Lemma optimize_phases p len minS fo s vM o v0 v1 a d j t0 s0 :
  p_plan x_num p (XF len) minS fo s = (XF vM, o) ->
  ad_vStart (p_left p) = XF v0 -> ad_vEnd (p_right p) = XF v1 ->
  p_aMax p = XF a -> p_dMax p = XF d -> p_jMax p = XF j -> p_doneDuration p = XF t0 -> p_doneLength p = XF s0 ->
  0 < a -> d < 0 -> 0 < j -> 0 <= v0 -> 0 <= v1 -> 0 <= vM ->
  flen a d v0 vM + flen a d vM v1 <= len - s0 ->
  let q := p_optimize x_num p (XF len) minS fo s in
  exists o' r1 r3 L2, phases q o' v0 vM v1 a d j t0 s0 L2 r1 r3 /\ 0 <= L2 /\ r_L r1 + L2 + r_L r3 = len - s0 /\
    p_duration q = xadd (xadd (XF (t0 + r_T r1)) (xdiv (XF L2) (XF vM))) (XF (r_T r3)) /\
    p_tStop q = (if reqb vM 0 then XF (t0 + r_T r1) else XP) /\ (o = firstOrder -> o' = firstOrder).
Proof.
  intros PL E0 E1 EA ED EJ ET ES Ha Hd Hj H0 H1 HM HF. cbv zeta.
  remember (p_optimize x_num p (XF len) minS fo s) as q eqn:Q. unfold p_optimize in Q. rewrite PL in Q.
  destruct (ramps_ok p vM o v0 v1 a d j) as (r1 & r3 & M1 & M3 & G1 & G3); auto.
  set (p1 := p_ramps x_num p (XF vM) o) in *.
  assert (D1 : p_doneLength p1 = XF s0) by exact ES.
  assert (ML1 : ad_length (p_left p1) = XF (r_L r1)) by apply M1. assert (ML3 : ad_length (p_right p1) = XF (r_L r3)) by apply M3.
  assert (MT1 : ad_duration (p_left p1) = XF (r_T r1)) by apply M1. assert (MT3 : ad_duration (p_right p1) = XF (r_T r3)) by apply M3.
  rewrite ML1, ML3, D1 in Q. cbv beta iota zeta in Q.
  destruct (Rlt_dec (len - s0) (r_L r1 + r_L r3)) as [L|L].
  - assert (C : nltb x_num (nsub x_num (XF len) (XF s0)) (nadd x_num (XF (r_L r1)) (XF (r_L r3))) = true).
    { xs. unfold rltb. destruct (Rlt_dec _ _); auto; lra. }
    rewrite C in Q.
    assert (E0' : ad_vStart (p_left p1) = XF v0) by (destruct M1 as (-> & _); destruct G1 as (-> & _); auto).
    assert (E1' : ad_vEnd (p_right p1) = XF v1) by (destruct M3 as (_ & -> & _); destruct G3 as (_ & -> & _); auto).
    destruct (ramps_ok p1 vM firstOrder v0 v1 a d j) as (q1 & q3 & N1 & N3 & F1 & F3); auto.
    set (p2 := p_ramps x_num p1 (XF vM) firstOrder) in *.
    pose proof (flen_first q1 _ _ _ _ _ Ha Hd F1) as FL1. pose proof (flen_first q3 _ _ _ _ _ Ha Hd F3) as FL3.
    assert (NL1 : ad_length (p_left p2) = XF (r_L q1)) by apply N1. assert (NL3 : ad_length (p_right p2) = XF (r_L q3)) by apply N3.
    assert (NT1 : ad_duration (p_left p2) = XF (r_T q1)) by apply N1. assert (NT3 : ad_duration (p_right p2) = XF (r_T q3)) by apply N3.
    assert (D2 : p_doneLength p2 = XF s0) by exact ES. assert (D3 : p_doneDuration p2 = XF t0) by exact ET.
    exists firstOrder, q1, q3, (len - s0 - (r_L q1 + r_L q3)). rewrite Q. rewrite NL1, NL3, NT1, NT3, D2, D3.
    split; [constructor; cbn [p_left p_right p_mid p_doneLength p_doneDuration]; auto|].
    split; [lra|]. split; [ring|]. split; [reflexivity|]. split; auto.
  - assert (C : nltb x_num (nsub x_num (XF len) (XF s0)) (nadd x_num (XF (r_L r1)) (XF (r_L r3))) = false).
    { xs. unfold rltb. destruct (Rlt_dec _ _); auto; lra. }
    rewrite C in Q.
    exists o, r1, r3, (len - s0 - (r_L r1 + r_L r3)). rewrite Q. rewrite ML1, ML3, MT1, MT3, D1.
    replace (p_doneDuration p1) with (XF t0) by (symmetry; exact ET).
    split; [constructor; cbn [p_left p_right p_mid p_doneLength p_doneDuration]; auto|].
    split; [lra|]. split; [ring|]. split; [reflexivity|]. split; auto.
Qed.

(** Phases with non-zero cruise speed give the three-phase functions. *)
Lemma phases_fun q o v0 vM v1 a d j t0 s0 L2 r1 r3 : phases q o v0 vM v1 a d j t0 s0 L2 r1 r3 -> 0 < vM ->
  forall t, p_s x_num q (XF t) = XF (ph_s vM t0 s0 (L2 / vM) r1 r3 t) /\
            p_v x_num q (XF t) = XF (ph_v vM t0 (L2 / vM) r1 r3 t) /\
            p_a x_num q (XF t) = XF (ph_a t0 (L2 / vM) r1 r3 t).
Proof.
  intros [M1 M3 G1 G3 MD [D1 D2]] P t. rewrite xdiv_nz in MD by lra.
  assert (EL : vM * (L2 / vM) = L2) by (field; lra).
  assert (MT1 : ad_duration (p_left q) = XF (r_T r1)) by apply M1.
  assert (ML1 : ad_length (p_left q) = XF (r_L r1)) by apply M1.
  unfold p_s, p_v, p_a, ph_s, ph_v, ph_a. rewrite D1, D2, MT1, ML1, MD. cbn [cr_duration cr_length cr_s cr_v cr_a cr_vMid].
  unfold cr_s, cr_v, cr_a. cbn [cr_vMid].
  cbn [nleb x_num]. rewrite xleb_XF. destruct (rleb t t0).
  { rewrite (matches_v _ _ 0 M1 : ad_v x_num (p_left q) (nofZ x_num 0) = _), (matches_a _ _ 0 M1 : ad_a x_num (p_left q) (nofZ x_num 0) = _). auto. }
  xs. rewrite xleb_XF. destruct (rleb (t - t0) (r_T r1)).
  { rewrite (matches_s _ _ _ M1), (matches_v _ _ _ M1), (matches_a _ _ _ M1). auto. }
  xs. rewrite xleb_XF. destruct (rleb (t - t0 - r_T r1) (L2 / vM)).
  { auto. }
  xs. rewrite (matches_s _ _ _ M3), (matches_v _ _ _ M3), (matches_a _ _ _ M3). xs. rewrite EL. auto.
Qed.

Lemma flen_nonneg a d x y : 0 < a -> d < 0 -> 0 <= x -> 0 <= y -> 0 <= flen a d x y.
Proof.
  intros. unfold flen. destruct (Rlt_dec x y).
  - apply Rmult_le_pos; [assert (x * x <= y * y) by (apply sq_mono; lra); lra|apply Rlt_le, Rinv_0_lt_compat; lra].
  - replace ((y * y - x * x) / (2 * d)) with ((x * x - y * y) / (2 * - d)) by (field; lra).
    apply Rmult_le_pos; [assert (y * y <= x * x) by (apply sq_mono; lra); lra|apply Rlt_le, Rinv_0_lt_compat; lra].
Qed.

Lemma flen_up a d x y : 0 < a -> d < 0 -> 0 <= x <= y -> flen a d x y = (y * y - x * x) / (2 * a).
Proof. intros. unfold flen. destruct (Rlt_dec x y); auto. replace y with x by lra. field. lra. Qed.
Lemma flen_down a d x y : y <= x -> flen a d x y = (y * y - x * x) / (2 * d).
Proof. intros. unfold flen. destruct (Rlt_dec x y); auto. lra. Qed.


Lemma div_pos_mono x y c : 0 < c -> x <= y -> x / (2 * c) <= y / (2 * c).
Proof. intros. apply Rmult_le_compat_r; [apply Rlt_le, Rinv_0_lt_compat; lra|lra]. Qed.

Lemma plan_any p len minS fo st v0 v1 a d j vm t0 s0 :
  plan_input p fo v0 v1 a d j vm t0 s0 -> feasible v0 v1 a d (len - s0) -> 0 <= len - s0 -> 0 <= vm ->
  exists vM o, p_plan x_num p (XF len) minS fo st = (XF vM, o) /\ 0 <= vM <= Rmax (target st vm) (Rmin v0 v1) /\
    flen a d v0 vM + flen a d vM v1 <= len - s0 /\
    (vM = target st vm \/ flen a d v0 vM + flen a d vM v1 = len - s0) /\
    (0 < target st vm -> 0 < len - s0 -> 0 < vM).
Proof.
  intros PI [FE1 FE2] HL HV. destruct PI as [I0 I1 IA ID IJ IT IS IC Ha Hd Hj P0 P1].
  destruct (vTri_max_lemma v0 v1 a d (len - s0)) as (vT & ET & VT0 & VTE & VT1 & VT2); auto.
  destruct (vTri_min_lemma v0 v1 a d (len - s0)) as (vN & EM & VN0 & VNE & VN1 & VN2); auto.
  specialize (VT1 FE1). specialize (VT2 FE2). specialize (VN1 FE1). specialize (VN2 FE2).
  assert (QT : p_vTri x_num p (XF len) maximizeSpeed = XF vT) by (unfold p_vTri; rewrite I0, I1, IA, ID, IS; exact ET).
  assert (QM : p_vTri x_num p (XF len) minimizeSpeed = XF vN) by (unfold p_vTri; rewrite I0, I1, IA, ID, IS; exact EM).
  assert (ND : forall x, x / (2 * d) = (- x) / (2 * - d)) by (intro x; field; lra).
  (* any speed between vN and vT fits *)
  assert (FL : forall x, vN <= x <= vT -> flen a d v0 x + flen a d x v1 <= len - s0).
  { intros x [X1 X2]. assert (S1 : vN * vN <= x * x) by (apply sq_mono; lra). assert (S2 : x * x <= vT * vT) by (apply sq_mono; lra).
    destruct (Rlt_dec v0 x), (Rlt_dec x v1).
    - rewrite !flen_up by lra. replace ((x * x - v0 * v0) / (2 * a) + (v1 * v1 - x * x) / (2 * a)) with ((v1 * v1 - v0 * v0) / (2 * a)) by (field; lra).
      replace (len - s0) with (2 * a * (len - s0) / (2 * a)) by (field; lra). apply div_pos_mono; lra.
    - rewrite flen_up, flen_down by lra. rewrite <- VTE, (ND (v1 * v1 - x * x)), (ND (v1 * v1 - vT * vT)).
      apply Rplus_le_compat; apply div_pos_mono; lra.
    - rewrite flen_down, flen_up by lra. rewrite ND.
      destruct VNE as [VNE|[VNE Q]].
      + rewrite <- VNE, (ND (vN * vN - v0 * v0)). apply Rplus_le_compat; apply div_pos_mono; lra.
      + subst vN. rewrite (ND (0 - v0 * v0)) in Q. 
        assert ((- (x * x - v0 * v0)) / (2 * - d) <= (- (0 - v0 * v0)) / (2 * - d)) by (apply div_pos_mono; lra).
        assert ((v1 * v1 - x * x) / (2 * a) <= (v1 * v1 - 0) / (2 * a)) by (apply div_pos_mono; lra). lra.
    - rewrite !flen_down by lra. replace ((x * x - v0 * v0) / (2 * d) + (v1 * v1 - x * x) / (2 * d)) with ((v0 * v0 - v1 * v1) / (2 * - d)) by (field; lra).
      replace (len - s0) with (2 * - d * (len - s0) / (2 * - d)) by (field; lra). apply div_pos_mono; lra. }
  assert (FT : flen a d v0 vT + flen a d vT v1 = len - s0) by (rewrite flen_up, flen_down by lra; auto).
  assert (FN : 0 < vN -> flen a d v0 vN + flen a d vN v1 = len - s0).
  { intro. destruct VNE as [VNE|[VNE _]]; [|lra]. rewrite flen_down by lra. rewrite flen_up by lra. auto. }
  assert (MN : vN <= Rmin v0 v1) by (apply Rmin_glb; auto).
  pose proof (Rmax_l (target st vm) (Rmin v0 v1)) as ML. pose proof (Rmax_r (target st vm) (Rmin v0 v1)) as MR.
  assert (VTP : 0 < len - s0 -> 0 < vT).
  { intro HL'. destruct VT0 as [|Z]; auto. exfalso. assert (v0 = 0) by lra. assert (v1 = 0) by lra. subst v0 v1. rewrite <- Z in VTE.
    replace ((0 * 0 - 0 * 0) / (2 * a) + (0 * 0 - 0 * 0) / (2 * d)) with 0 in VTE by (field; lra). lra. }
  unfold p_plan. destruct st.
  - cbn [nltb nmul x_num target] in *. rewrite IC, QT, QM. xs.
    rewrite (rltb_if vT vm). destruct (Rlt_dec vT vm) as [L|L].
    + rewrite (rltb_if vT vN). destruct (Rlt_dec vT vN) as [L'|L'].
      * exists vN, firstOrder. split; auto. split; [lra|]. rewrite FN by lra. split; [lra|]. split; [auto|lra].
      * exists vT, firstOrder. split; auto. split; [lra|]. rewrite FT by lra. split; [lra|]. split; auto.
    + rewrite (rltb_if vm vN). destruct (Rlt_dec vm vN) as [L'|L'].
      * exists vN, firstOrder. split; auto. split; [lra|]. rewrite FN by lra. split; [lra|]. split; [auto|lra].
      * eexists vm, _. split; [reflexivity|]. split; [lra|]. split; [apply FL; lra|]. split; auto.
  - cbn [target] in *. rewrite QM. xs. rewrite (rltb_if 0 vN). destruct (Rlt_dec 0 vN) as [L'|L'].
    + exists vN, firstOrder. split; auto. split; [lra|]. rewrite FN by lra. split; [lra|]. split; [auto|lra].
    + eexists 0, _. split; [reflexivity|]. split; [lra|]. split; [apply FL; lra|]. split; [auto|lra].
Qed.

(** Phases whose cruise speed is 0: the motion comes to rest after the left ramp. *)
Lemma phases_stop q o v0 v1 a d j t0 s0 L2 r1 r3 r : phases q o v0 0 v1 a d j t0 s0 L2 r1 r3 ->
  forall t, t <= t0 + r_T r1 ->
            p_s x_num q (XF t) = XF (ph_s 0 t0 s0 0 r1 r t) /\
            p_v x_num q (XF t) = XF (ph_v 0 t0 0 r1 r t) /\
            p_a x_num q (XF t) = XF (ph_a t0 0 r1 r t).
Proof.
  intros [M1 M3 G1 G3 MD [D1 D2]] t Ht.
  assert (MT1 : ad_duration (p_left q) = XF (r_T r1)) by apply M1.
  assert (ML1 : ad_length (p_left q) = XF (r_L r1)) by apply M1.
  unfold p_s, p_v, p_a, ph_s, ph_v, ph_a. rewrite D1, D2, MT1, ML1, MD.
  cbn [nleb x_num]. rewrite xleb_XF. rewrite (rleb_if t t0). destruct (Rle_dec t t0).
  { rewrite !rleb_if. destruct (Rle_dec t t0); [|lra].
    rewrite (matches_v _ _ 0 M1 : ad_v x_num (p_left q) (nofZ x_num 0) = _), (matches_a _ _ 0 M1 : ad_a x_num (p_left q) (nofZ x_num 0) = _). auto. }
  rewrite !(rleb_if t t0). destruct (Rle_dec t t0); [lra|].
  xs. rewrite xleb_XF, !(rleb_if (t - t0) (r_T r1)). destruct (Rle_dec (t - t0) (r_T r1)); [|lra].
  rewrite (matches_s _ _ _ M1), (matches_v _ _ _ M1), (matches_a _ _ _ M1). auto.
Qed.

Lemma zero_ramp o a d j : 0 < a -> d < 0 -> r_good o 0 0 a d j (mkR 0 0 (- j) 0 0 0).
Proof.
  intros. unfold r_good. cbn [r_v0 r_v1 r_J r_A r_d1 r_d2].
  split; [auto|]. split; [auto|]. split; [lra|]. split; [lra|]. split; [ring|]. split; [right; lra|]. split; [intro; split; [ring|auto]|].
  intro. split; auto. destruct (Rlt_dec 0 0); field; lra.
Qed.

Lemma optimize_lemma p len minS fo st v0 v1 a d j vm t0 s0 :
  plan_input p fo v0 v1 a d j vm t0 s0 -> feasible v0 v1 a d (len - s0) -> 0 <= len - s0 -> 0 <= vm ->
  let q := p_optimize x_num p (XF len) minS fo st in
  p_doneDuration q = XF t0 /\ p_doneLength q = XF s0 /\
  exists t1 vM s v acc, 0 <= vM <= Rmax (target st vm) (Rmin v0 v1) /\
    (vM = target st vm \/ flen a d v0 vM + flen a d vM v1 = len - s0) /\
    (exists t, t0 <= t <= t1 /\ v t = vM) /\
    (forall t, t <= t1 -> p_s x_num q (XF t) = XF (s t) /\ p_v x_num q (XF t) = XF (v t) /\ p_a x_num q (XF t) = XF (acc t)) /\
    ((0 < vM /\ p_duration q = XF t1 /\ p_tStop q = XP /\
      plan_spec v0 v1 a d (Rmax v0 (Rmax vM v1)) t0 s0 t1 len s v acc) \/
     (vM = 0 /\ p_tStop q = XF t1 /\ (p_duration q = XP \/ p_duration q = XN) /\
      exists s1, v1 * v1 <= 2 * a * (len - s1) /\ plan_spec v0 0 a d v0 t0 s0 t1 s1 s v acc)) /\
    (0 < target st vm -> 0 < len - s0 -> 0 < vM).
Proof.
  intros PI FE HL HV. cbv zeta. set (q := p_optimize x_num p (XF len) minS fo st).
  pose proof PI as [I0 I1 IA ID IJ IT IS IC Ha Hd Hj P0 P1].
  destruct (plan_any p len minS fo st v0 v1 a d j vm t0 s0 PI FE HL HV) as (vM & o & PL & VM & FL & AL & PO).
  destruct (optimize_phases p len minS fo st vM o v0 v1 a d j t0 s0) as (o' & r1 & r3 & L2 & PH & L20 & SUM & DU & TS & _);
    auto; [lra|]. fold q in PH, DU, TS.
  split; [apply PH|]. split; [apply PH|].
  assert (T1P : 0 <= r_T r1 /\ 0 <= r_T r3 /\ r_v r1 (r_T r1) = vM).
  { pose proof (r_spec o' v0 vM a d j r1 P0 ltac:(lra) Ha Hd Hj (ph_g1 _ _ _ _ _ _ _ _ _ _ _ _ _ PH)) as S1.
    pose proof (r_spec o' vM v1 a d j r3 ltac:(lra) P1 Ha Hd Hj (ph_g3 _ _ _ _ _ _ _ _ _ _ _ _ _ PH)) as S3.
    split; [apply (rs_T _ _ _ _ _ _ _ _ _ _ _ S1)|]. split; [apply (rs_T _ _ _ _ _ _ _ _ _ _ _ S3)|apply (rs_end _ _ _ _ _ _ _ _ _ _ _ S1)]. }
  destruct T1P as (T1P & T3P & TE).
  assert (PK : forall T2 r, ph_v vM t0 T2 r1 r (t0 + r_T r1) = vM).
  { intros. unfold ph_v. rewrite !rleb_if. destruct (Rle_dec (t0 + r_T r1) t0).
    - transitivity (r_v r1 (r_T r1)); [f_equal; lra|auto].
    - destruct (Rle_dec (t0 + r_T r1 - t0) (r_T r1)); [|lra]. transitivity (r_v r1 (r_T r1)); [f_equal; ring|auto]. }
  destruct (Req_EM_T vM 0) as [Z|NZ].
  - clear TE. subst vM. pose proof (phases_stop _ _ _ _ _ _ _ _ _ _ _ _ (mkR 0 0 (- j) 0 0 0) PH) as FN.
    destruct PH as [M1 M3 G1 G3 MD [D1 D2]].
    exists (t0 + r_T r1), 0, (ph_s 0 t0 s0 0 r1 (mkR 0 0 (- j) 0 0 0)), (ph_v 0 t0 0 r1 (mkR 0 0 (- j) 0 0 0)), (ph_a t0 0 r1 (mkR 0 0 (- j) 0 0 0)).
    split; auto. split; auto. split. { exists (t0 + r_T r1). split; [lra|apply PK]. }
    split; [exact FN|]. split; [|exact PO]. right. split; auto.
    split. { rewrite TS. unfold reqb. destruct (Req_EM_T 0 0); [auto|lra]. }
    split. { rewrite DU. cbn [xdiv]. destruct (Req_EM_T 0 0); [|lra]. unfold xsgn.
      destruct (Rlt_dec 0 L2); [left; auto|]. destruct (Rlt_dec L2 0); [lra|right; auto]. }
    exists (s0 + r_L r1). split.
    { pose proof (r_spec o' 0 v1 a d j r3 ltac:(lra) P1 Ha Hd Hj G3) as S3.
      destruct (rs_start _ _ _ _ _ _ _ _ _ _ _ S3) as [B3 B3']. destruct (rs_end _ _ _ _ _ _ _ _ _ _ _ S3) as [F3 F3'].
      pose proof (energy (r_s r3) (r_v r3) (r_a r3) a d 0 (r_T r3) T3P (rs_speed _ _ _ _ _ _ _ _ _ _ _ S3)
        (rs_acc _ _ _ _ _ _ _ _ _ _ _ S3) (rs_cont _ _ _ _ _ _ _ _ _ _ _ S3)) as EN.
      assert (EP : forall t, 0 <= t <= r_T r3 -> 0 <= r_v r3 t).
      { intros t Ht. pose proof (rs_vbound _ _ _ _ _ _ _ _ _ _ _ S3 t Ht). pose proof (Rmin_glb 0 v1 0 ltac:(lra) ltac:(lra)). lra. }
      specialize (EN EP). assert (EB : forall t, 0 < t < r_T r3 -> d <= r_a r3 t <= a) by (intros; apply (rs_abound _ _ _ _ _ _ _ _ _ _ _ S3); lra).
      specialize (EN EB). rewrite B3, B3', F3, F3' in EN.
      assert (0 <= a * L2) by (apply Rmult_le_pos; lra).
      replace (len - (s0 + r_L r1)) with (L2 + r_L r3) by lra. lra. }
    pose proof (ph_plan o' v0 0 0 a d j t0 s0 0 r1 (mkR 0 0 (- j) 0 0 0) P0 ltac:(lra) ltac:(lra) Ha Hd Hj G1 (zero_ramp o' a d j Ha Hd) ltac:(lra) v0) as PP.
    assert (HH : Rmax v0 (Rmax 0 0) <= v0) by (apply Rmax_lub; [lra|apply Rmax_lub; lra]). specialize (PP HH).
    unfold r_T at 2 in PP. unfold r_L at 2 in PP. unfold r_T at 2 in PP. cbn [r_v0 r_v1 r_d1 r_d2] in PP.
    replace (t0 + r_T r1 + 0 + (0 + 0 + 0)) with (t0 + r_T r1) in PP by ring.
    match type of PP with plan_spec _ _ _ _ _ _ _ _ ?e _ _ _ => replace e with (s0 + r_L r1) in PP by field end. exact PP.
  - rewrite xdiv_nz in DU by lra. cbn [xadd] in DU.
    pose proof (phases_fun _ _ _ _ _ _ _ _ _ _ _ _ _ PH ltac:(lra)) as FN. destruct PH as [M1 M3 G1 G3 MD [D1 D2]].
    assert (T2P : 0 <= L2 / vM) by (apply Rmult_le_pos; [auto|apply Rlt_le, Rinv_0_lt_compat; lra]).
    exists (t0 + r_T r1 + L2 / vM + r_T r3), vM, (ph_s vM t0 s0 (L2 / vM) r1 r3), (ph_v vM t0 (L2 / vM) r1 r3), (ph_a t0 (L2 / vM) r1 r3).
    split; auto. split; auto. split. { exists (t0 + r_T r1). split; [lra|apply PK]. }
    split; [intros t _; apply FN|]. split; [|exact PO]. left. split; [lra|]. split; auto.
    split. { rewrite TS. unfold reqb. destruct (Req_EM_T vM 0); [lra|auto]. }
    assert (EL : vM * (L2 / vM) = L2) by (field; lra).
    assert (LEN : len = s0 + r_L r1 + vM * (L2 / vM) + r_L r3) by (rewrite EL; lra). rewrite LEN.
    apply (ph_plan o' v0 vM v1 a d j t0 s0 (L2 / vM) r1 r3); auto; try lra.
Qed.

(** *** Re-planning while the motion executes *)
Lemma optimize_keeps p len minS fo st : let q := p_optimize x_num p len minS fo st in
  p_vMax q = p_vMax p /\ p_vFeed q = p_vFeed p /\ p_aMax q = p_aMax p /\ p_dMax q = p_dMax p /\ p_jMax q = p_jMax p /\
  ad_vEnd (p_right q) = ad_vEnd (p_right p).
Proof.
  cbv zeta. unfold p_optimize. destruct (p_plan x_num p len minS fo st) as [vM o].
  assert (K : forall p vM o, let q := p_ramps x_num p vM o in
    p_vMax q = p_vMax p /\ p_vFeed q = p_vFeed p /\ p_aMax q = p_aMax p /\ p_dMax q = p_dMax p /\ p_jMax q = p_jMax p /\
    ad_vEnd (p_right q) = ad_vEnd (p_right p)).
  { intros p0 vM0 o0. cbv zeta. unfold p_ramps. cbn [p_vMax p_vFeed p_aMax p_dMax p_jMax p_right]. repeat (split; [reflexivity|]).
    unfold ad_calculate. destruct o0; [reflexivity|]. cbv beta iota zeta.
    match goal with |- context [if ?b then _ else _] => destruct b end;
    match goal with |- context [if ?b then _ else _] => destruct b end; reflexivity. }
  cbv beta iota zeta.
  destruct (K p vM o) as (K1 & K2 & K3 & K4 & K5 & K6). set (p1 := p_ramps x_num p vM o) in *.
  match goal with |- context [if ?b then _ else _] => destruct b end; cbn [p_vMax p_vFeed p_aMax p_dMax p_jMax p_right].
  - destruct (K p1 vM firstOrder) as (L1 & L2 & L3 & L4 & L5 & L6). rewrite L1, L2, L3, L4, L5, L6. auto 7.
  - auto 7.
Qed.

Lemma replan_start_s q t t0 (T1 : R) : p_doneDuration q = XF t0 -> ad_duration (p_left q) = XF T1 ->
  t <= t0 \/ t0 + T1 < t -> p_doneLength (p_replan_start x_num q (XF t)) = p_s x_num q (XF t).
Proof.
  intros E ET H. unfold p_replan_start. cbn [p_doneLength]. unfold p_s. cbn [p_doneDuration p_left p_mid p_right p_doneLength].
  rewrite E. cbn [nleb x_num]. rewrite !xleb_XF. unfold rleb. destruct (Rle_dec t t0); [reflexivity|].
  destruct H; [lra|]. cbn [ad_setvStart ad_duration ad_length]. rewrite ET. xs. rewrite !xleb_XF.
  unfold rleb. destruct (Rle_dec (t - t0) T1); [lra|]. reflexivity.
Qed.

Lemma xmul_same_cap (p q : profile xr) fo : p_vMax q = p_vMax p -> p_vFeed q = p_vFeed p ->
  (if xltb (p_vMax q) (xmul (p_vFeed q) fo) then p_vMax q else xmul (p_vFeed q) fo) =
  (if xltb (p_vMax p) (xmul (p_vFeed p) fo) then p_vMax p else xmul (p_vFeed p) fo).
Proof. intros -> ->. reflexivity. Qed.

Lemma replan_lemma p len minS fo st v0 v1 a d j vm t0 s0 fo' st' vm' tN T1 :
  plan_input p fo v0 v1 a d j vm t0 s0 -> feasible v0 v1 a d (len - s0) -> 0 <= len - s0 -> 0 <= vm ->
  let q := p_optimize x_num p (XF len) minS fo st in
  (if xltb (p_vMax p) (xmul (p_vFeed p) fo') then p_vMax p else xmul (p_vFeed p) fo') = XF vm' -> 0 <= vm' ->
  ad_duration (p_left q) = XF T1 -> t0 <= tN -> tN <= t0 \/ t0 + T1 < tN ->
  (forall te, p_duration q = XF te \/ p_tStop q = XF te -> tN <= te) ->
  exists sN vN, p_s x_num q (XF tN) = XF sN /\ p_v x_num q (XF tN) = XF vN /\
    plan_input (p_replan_start x_num q (XF tN)) fo' vN v1 a d j vm' tN sN /\
    feasible vN v1 a d (len - sN) /\ 0 <= len - sN /\
    let q' := p_optimize x_num (p_replan_start x_num q (XF tN)) (XF len) minS fo' st' in
    p_s x_num q' (XF tN) = XF sN /\ p_v x_num q' (XF tN) = XF vN.
Proof.
  intros PI FE HL HV q CAP HV' ED HT NL EN. pose proof PI as [I0 I1 IA ID IJ IT IS IC Ha Hd Hj P0 P1].
  destruct (optimize_lemma p len minS fo st v0 v1 a d j vm t0 s0 PI FE HL HV) as (D1 & D2 & t1 & vM & s & v & acc & VM & _ & _ & FN & PS & _).
  fold q in D1, D2, FN, PS. exists (s tN), (v tN).
  assert (TE : tN <= t1).
  { destruct PS as [(_ & E & _)|(_ & E & _)]; apply EN; auto. }
  destruct (FN tN TE) as (F1 & F2 & F3). split; auto. split; auto.
  assert (FE' : feasible (v tN) v1 a d (len - s tN) /\ 0 <= len - s tN /\ 0 <= v tN).
  { destruct PS as [(VP & _ & _ & PS)|(VZ & _ & _ & s1 & S1 & PS)].
    - pose proof (ps_energy _ _ _ _ _ _ _ _ _ _ _ _ PS tN t1 ltac:(lra) ltac:(lra)) as E.
      destruct (ps_end _ _ _ _ _ _ _ _ _ _ _ _ PS) as [E1 E2]. rewrite E1, E2 in E.
      pose proof (ps_vbound _ _ _ _ _ _ _ _ _ _ _ _ PS tN ltac:(lra)) as B.
      split; [|split]; [split; lra| |lra].
      assert (K : 2 * d * (len - s tN) <= 2 * a * (len - s tN)) by lra.
      destruct (Rle_dec 0 (len - s tN)); auto. exfalso.
      assert (0 < (a - d) * - (len - s tN)) by (apply Rmult_lt_0_compat; lra). lra.
    - pose proof (ps_energy _ _ _ _ _ _ _ _ _ _ _ _ PS tN t1 ltac:(lra) ltac:(lra)) as E.
      destruct (ps_end _ _ _ _ _ _ _ _ _ _ _ _ PS) as [E1 E2]. rewrite E1, E2 in E.
      pose proof (ps_vbound _ _ _ _ _ _ _ _ _ _ _ _ PS tN ltac:(lra)) as B.
      assert (Q0 : 0 <= v tN * v tN) by (apply Rmult_le_pos; lra). assert (Q1 : 0 <= v1 * v1) by (apply Rmult_le_pos; lra).
      assert (K1 : 0 <= s1 - s tN).
      { destruct (Rle_dec 0 (s1 - s tN)); auto. exfalso. assert (0 < - d * - (s1 - s tN)) by (apply Rmult_lt_0_compat; lra). lra. }
      assert (K2 : 0 <= len - s1).
      { destruct (Rle_dec 0 (len - s1)); auto. exfalso. assert (0 < a * - (len - s1)) by (apply Rmult_lt_0_compat; lra). lra. }
      assert (0 <= a * (s1 - s tN)) by (apply Rmult_le_pos; lra).
      assert (0 <= - d * (len - s1)) by (apply Rmult_le_pos; lra).
      split; [|split]; [split| |lra]; lra. }
  destruct FE' as (FE' & HL' & VN).
  destruct (optimize_keeps p (XF len) minS fo st) as (Q1 & Q2 & Q3 & Q4 & Q5 & Q6). fold q in Q1, Q2, Q3, Q4, Q5, Q6.
  assert (PI' : plan_input (p_replan_start x_num q (XF tN)) fo' (v tN) v1 a d j vm' tN (s tN)).
  { constructor; auto.
    - unfold p_replan_start. cbn [p_right]. congruence.
    - unfold p_replan_start. cbn [p_aMax]. congruence.
    - unfold p_replan_start. cbn [p_dMax]. congruence.
    - unfold p_replan_start. cbn [p_jMax]. congruence.
    - rewrite (replan_start_s q tN t0 T1) by auto. auto.
    - unfold p_replan_start. cbn [p_vMax p_vFeed]. rewrite (xmul_same_cap p q) by auto. auto. }
  split; auto. split; auto. split; auto. cbv zeta.
  destruct (optimize_lemma _ len minS fo' st' _ _ _ _ _ _ _ _ PI' FE' HL' HV') as (_ & _ & t1' & vM' & s' & v' & acc' & _ & _ & _ & FN' & PS' & _).
  assert (T' : tN <= t1').
  { destruct PS' as [(_ & _ & _ & PS')|(_ & _ & _ & s1 & _ & PS')]; apply (ps_time _ _ _ _ _ _ _ _ _ _ _ _ PS'). }
  destruct (FN' tN T') as (G1 & G2 & _). rewrite G1, G2.
  destruct PS' as [(_ & _ & _ & PS')|(_ & _ & _ & s1 & _ & PS')]; destruct (ps_start _ _ _ _ _ _ _ _ _ _ _ _ PS') as [-> ->]; auto.
Qed.

Lemma phases_fill p len minS fo st v0 v1 a d j vm t0 s0 :
  plan_input p fo v0 v1 a d j vm t0 s0 -> feasible v0 v1 a d (len - s0) -> 0 <= len - s0 -> 0 <= vm ->
  let q := p_optimize x_num p (XF len) minS fo st in
  exists L1 L2 L3, ad_length (p_left q) = XF L1 /\ cr_length (p_mid q) = XF L2 /\ ad_length (p_right q) = XF L3 /\
    0 <= L1 /\ 0 <= L2 /\ 0 <= L3 /\ L1 + L2 + L3 = len - s0.
Proof.
  intros PI FE HL HV. cbv zeta. pose proof PI as [I0 I1 IA ID IJ IT IS IC Ha Hd Hj P0 P1].
  destruct (plan_any p len minS fo st v0 v1 a d j vm t0 s0 PI FE HL HV) as (vM & o & PL & VM & FL & _).
  destruct (optimize_phases p len minS fo st vM o v0 v1 a d j t0 s0) as (o' & r1 & r3 & L2 & PH & L20 & SUM & _); auto; [lra|].
  destruct PH as [M1 M3 G1 G3 MD _]. exists (r_L r1), L2, (r_L r3).
  split; [apply M1|]. split; [rewrite MD; reflexivity|]. split; [apply M3|].
  split; [apply (rs_L _ _ _ _ _ _ _ _ _ _ _ (r_spec o' v0 vM a d j r1 P0 ltac:(lra) Ha Hd Hj G1))|]. split; auto.
  split; [apply (rs_L _ _ _ _ _ _ _ _ _ _ _ (r_spec o' vM v1 a d j r3 ltac:(lra) P1 Ha Hd Hj G3))|auto].
Qed.
