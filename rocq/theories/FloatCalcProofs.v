(** binary32: the numbers computed for a speed change from or to standstill are close to exact ones. *)
Require Import List Arith NArith ZArith Bool Reals Lra Lia.
From Coq Require Import Floats.SpecFloat.
From Verif Require Import Base Num NumR NumSF MotionModel CtrlModel ProfileSpec ProfileProofs PlanProofs FloatSpec FloatProofs FloatClockProofs FloatErrProofs FloatRampProofs.
Open Scope R_scope.

Lemma sqrt_near_up x r e : 0 < r -> r <= x -> x - r <= e * r -> 0 <= sqrt x - sqrt r <= e / 2 * sqrt r.
Proof.
  intros P H E. assert (Q : 0 < sqrt r) by (apply sqrt_lt_R0; lra). pose proof (sqrt_le_1_alt r x H) as L.
  split; [lra|]. pose proof (sqrt_sqrt x ltac:(lra)) as X1. pose proof (sqrt_sqrt r ltac:(lra)) as X2.
  apply Rmult_le_reg_r with (2 * sqrt r); [lra|].
  apply Rle_trans with ((sqrt x - sqrt r) * (sqrt x + sqrt r)); [apply Rmult_le_compat_l; lra|].
  replace ((sqrt x - sqrt r) * (sqrt x + sqrt r)) with (x - r) by lra.
  replace (e / 2 * sqrt r * (2 * sqrt r)) with (e * (sqrt r * sqrt r)) by field. rewrite X2. exact E.
Qed.

Section Calc.
Variable X : sf_funs.
Notation K := (aF (sf_arith X)).

Lemma sub_0_l x r : fin32 x r -> fin32 (nsub K (nofZ K 0) x) (- r).
Proof.
  intro F. assert (E : rnd (0 - r) = - r).
  { replace (0 - r) with (- r) by ring. apply rnd_id. apply Generic_fmt.generic_format_opp. eapply fin_format; eauto. }
  rewrite <- E. apply (fin_sub _ _ prec24 max24); auto; [apply (fin_lit X 0); lia|]. unfold small. fold rnd. rewrite E, Rabs_Ropp. eapply fin_bound; eauto.
Qed.
Lemma mul_0_l x r : fin32 x r -> fin32 (nmul K (nofZ K 0) x) 0.
Proof.
  intro F. assert (E : rnd (0 * r) = 0) by (rewrite Rmult_0_l; apply rnd_0).
  assert (H : fin32 (nmul K (nofZ K 0) x) (rnd (0 * r))); [|rewrite E in H; exact H]. apply (fin_mul _ _ prec24 max24); auto; [apply (fin_lit X 0); lia|].
  apply small_huge. rewrite Rmult_0_l, Rabs_R0. unfold highest. lra.
Qed.

(** The ranges of the parameters. *)
Definition plain (x : R) : Prop := / 16384 <= x <= 1048576.

(** *** First order *)
Section First.
Variables (V a j : R).
Hypothesis HV : / 65536 <= V <= 2097152. Hypothesis Ha : plain a. Hypothesis Hj : plain j.
Hypothesis HJ : j * V <= 1000 * (a * a).

Let T := V / a.
Let PE : 0 < eps. Proof. unfold eps. lra. Qed.
Let HT : / 68719476736 <= T <= 34359738368.
Proof.
  unfold T, plain in *. split.
  - apply Rmult_le_reg_r with a; [lra|]. unfold Rdiv. rewrite Rmult_assoc, Rinv_l by lra. lra.
  - apply Rmult_le_reg_r with a; [lra|]. unfold Rdiv. rewrite Rmult_assoc, Rinv_l by lra. lra.
Qed.
Let ET : a * T = V. Proof. unfold T, plain in *. field. lra. Qed.
Let SVT : scl (V * T) /\ scl T /\ scl (1/2 * V * T).
Proof.
  split; [|split].
  - apply (scl_mul V T (/ 65536) 2097152 (/ 68719476736) 35184372088832); unfold lowest, highest; lra.
  - unfold scl, lowest, highest. lra.
  - apply (scl_mul (1/2 * V) T (1/2 * / 65536) (1/2 * 2097152) (/ 68719476736) 35184372088832); unfold lowest, highest; lra.
Qed.

Lemma first_T : / 68719476736 <= T <= 34359738368. Proof. exact HT. Qed.
(** What is common to both directions; [d2] is the duration, [w] the sum of the two speeds. *)
Lemma first_len d2 w : fap T (9/8) d2 T -> fin32 w V -> fap (V * T) 10 (nmul K (nmul K w d2) (ndec K 5 1)) ((0 + V) * T * (1/2)).
Proof.
  intros F2 Fw. destruct SVT as (S1 & S2 & S3). unfold plain in *. assert (PVT : 0 < V * T) by (apply Rmult_lt_0_compat; lra).
  assert (F3 : fap (V * T) (19/8) (nmul K w d2) (V * T)).
  { eapply fap_weak; [apply (fap_mul X V T 0 (9/8)); try apply fap_exact; auto; try lra|]; rewrite ?Rabs_pos_eq; lra. }
  replace ((0 + V) * T * (1/2)) with (V * T * (1/2)) by ring.
  eapply fap_weak; [apply (fap_mul X (V * T) (1/2) (19/8) 0); try apply fap_exact; try apply fin_half; auto; try lra|].
  - rewrite Rabs_pos_eq; lra.
  - rewrite Rabs_pos_eq; lra.
  - replace (V * T * (1/2)) with (1/2 * V * T) by field. auto.
  - lra.
Qed.
Lemma first_ideal v0 v1 J A : (v0 = 0 /\ v1 = V /\ J = j /\ A = a) \/ (v0 = V /\ v1 = 0 /\ J = - j /\ A = - a) ->
  ideal V T j (mkR v0 v1 J A 0 T).
Proof.
  intro D. unfold plain in *. constructor; cbn [r_v0 r_v1 r_J r_A r_d1 r_d2]; auto.
  - destruct D as [(-> & -> & -> & ->)|(-> & -> & -> & ->)]; [left|right]; repeat split; lra.
  - destruct D as [(-> & -> & -> & ->)|(-> & -> & -> & ->)]; lra.
  - lra.
  - lra.
  - unfold r_T. cbn. ring.
  - destruct D as [(_ & _ & _ & ->)|(_ & _ & _ & ->)]; [|rewrite Rabs_Ropp]; rewrite Rabs_pos_eq by lra; lra.
  - apply Rmult_le_reg_r with (a * a); [apply Rmult_lt_0_compat; lra|].
    replace (j * T * T * (a * a)) with (j * (a * T) * (a * T)) by ring. rewrite ET.
    apply Rle_trans with (1000 * (a * a) * V); [apply Rmult_le_compat_r; lra|].
    assert (0 < a * a * V) by (repeat apply Rmult_lt_0_compat; lra). lra.
Qed.
Lemma first_close v0 v1 J A p' p'' : (v0 = 0 /\ v1 = V /\ J = j /\ A = a) \/ (v0 = V /\ v1 = 0 /\ J = - j /\ A = - a) ->
  forall v0f v1f af df jf d2 w, fin32 v0f v0 -> fin32 v1f v1 -> fin32 jf j -> fin32 (if nltb K v0f v1f then af else df) A ->
  fap T (9/8) d2 T -> fin32 w V ->
  let l := nmul K (nmul K w d2) (ndec K 5 1) in
  close X V T j (mkR v0 v1 J A 0 T) (mkAD v0f v1f af df jf (nofZ K 0) (nofZ K 0) p' p'' l (nofZ K 0) d2 d2).
Proof.
  intros D v0f v1f af df jf d2 w F0 F1 Fj FA F2 Fw l. destruct SVT as (S1 & S2 & S3). unfold plain in *.
  assert (PVT : 0 < V * T) by (apply Rmult_lt_0_compat; lra).
  assert (Z : fin32 (nofZ K 0) 0) by (apply (fin_lit X 0); lia).
  constructor; cbn [r_v0 r_v1 r_J r_A r_d1 r_d2 ad_vStart ad_vEnd ad_jMax ad_d1d3 ad_d2 ad_duration ad_aMax ad_dMax ad_dV1 ad_s1 ad_length]; auto.
  - eapply fap_weak; [apply (fap_exact 0); [lra|exact Z]|lra].
  - eapply fap_weak; [apply (fap_eq T (9/8) _ T); [apply fap_add_0; exact F2|ring]|lra].
  - intros _. apply (fap_eq T (9/8) _ T); [apply fap_add_0; exact F2|ring].
  - eapply fap_weak; [exact F2|lra].
  - eapply fap_weak; [apply (fap_exact 0); [lra|exact FA]|]. assert (0 < 2 * V / T) by (apply Rdiv_lt_0_compat; lra). lra.
  - eapply fap_weak; [apply (fap_eq 0 0 _ 0); [apply (fap_exact 0); [lra|exact Z]|ring]|]. lra.
  - eapply fap_weak; [apply (fap_eq 0 0 _ 0); [apply (fap_exact 0); [lra|exact Z]|ring]|]. lra.
  - replace (r_L _) with ((0 + V) * T * (1/2)); [apply first_len; auto|]. unfold r_L, r_T. cbn.
    destruct D as [(-> & -> & _)|(-> & -> & _)]; ring.
Qed.

Lemma first_acc p d : ad_vStart p = nofZ K 0 -> fin32 (ad_vEnd p) V -> fin32 (ad_aMax p) a -> fin32 (ad_jMax p) j -> d < 0 ->
  exists r, ideal V T j r /\ close X V T j r (ad_calculate K p firstOrder) /\ r_good firstOrder 0 V a d j r.
Proof.
  intros E0 F1 Fa Fj Hd. unfold plain in *. exists (mkR 0 V j a 0 T). split; [apply first_ideal; auto|].
  assert (Z : fin32 (nofZ K 0) 0) by (apply (fin_lit X 0); lia).
  assert (LT : nltb K (nofZ K 0) (ad_vEnd p) = true). { rewrite (K_ltb X _ _ _ _ Z F1). apply Raux.Rlt_bool_true. lra. }
  split.
  - unfold ad_calculate. rewrite E0, LT.
    apply first_close with (w := nadd K (nofZ K 0) (ad_vEnd p)); auto.
    + rewrite LT. auto.
    + eapply fap_weak; [apply (fap_div X V 0 _ _ V a)|]; auto; try lra.
      * apply fap_exact; [lra|]. now apply sub_0_r.
      * rewrite Rabs_pos_eq; lra.
      * rewrite (Rabs_pos_eq a) by lra. apply SVT.
      * rewrite (Rabs_pos_eq a) by lra. fold T. lra.
    + now apply add_0_l.
  - unfold r_good. cbn [r_v0 r_v1 r_J r_A r_d1 r_d2]. repeat split; try lra; try discriminate.
    intros. destruct (Rlt_dec 0 V); [|lra]. unfold T. field. lra.
Qed.
Lemma first_dec p a' : ad_vEnd p = nofZ K 0 -> fin32 (ad_vStart p) V -> fin32 (ad_dMax p) (- a) -> fin32 (ad_jMax p) j -> 0 < a' ->
  exists r, ideal V T j r /\ close X V T j r (ad_calculate K p firstOrder) /\ r_good firstOrder V 0 a' (- a) j r.
Proof.
  intros E0 F1 Fa Fj Hd. unfold plain in *. exists (mkR V 0 (- j) (- a) 0 T). split; [apply first_ideal; auto|].
  assert (Z : fin32 (nofZ K 0) 0) by (apply (fin_lit X 0); lia).
  assert (LT : nltb K (ad_vStart p) (nofZ K 0) = false). { rewrite (K_ltb X _ _ _ _ F1 Z). apply Raux.Rlt_bool_false. lra. }
  split.
  - unfold ad_calculate. rewrite E0, LT.
    apply first_close with (w := nadd K (ad_vStart p) (nofZ K 0)); auto.
    + rewrite LT. auto.
    + assert (AN : Rabs (- a) = a) by (rewrite Rabs_Ropp, Rabs_pos_eq; lra).
      apply (fap_eq _ _ _ (- V / - a)); [|unfold T; field; lra].
      eapply fap_weak; [apply (fap_div X V 0 _ _ (- V) (- a))|]; auto; try lra.
      * apply fap_exact; [lra|]. now apply sub_0_l.
      * rewrite Rabs_Ropp, Rabs_pos_eq; lra.
      * rewrite AN. apply SVT.
      * rewrite AN. fold T. lra.
    + now apply add_0_r.
  - unfold r_good. cbn [r_v0 r_v1 r_J r_A r_d1 r_d2]. repeat split; try lra; try discriminate.
    intros. destruct (Rlt_dec V 0); [lra|]. unfold T. field. lra.
Qed.
End First.
(** *** Second order *)
Section Second.
Variables (V a j : R).
Hypothesis HV : / 65536 <= V <= 2097152. Hypothesis Ha : plain a. Hypothesis Hj : plain j.
Hypothesis HJ : j * V <= 1000 * (a * a).

Let Q := a * (a / j).
Let D := if Rle_dec Q V then a / j else sqrt (V / j).
Let T := V / (j * D) + D.
Let PE : 0 < eps. Proof. unfold eps. lra. Qed.
Let Pj : 0 < j. Proof. unfold plain in Hj. lra. Qed.
Let Pa : 0 < a. Proof. unfold plain in Ha. lra. Qed.
Let PV : 0 < V. Proof. lra. Qed.
Let PQ : 0 < a / j. Proof. apply Rdiv_lt_0_compat; auto. Qed.
Let PVj : 0 < V / j. Proof. apply Rdiv_lt_0_compat; auto. Qed.
Let EQ : j * (a / j) = a. Proof. field. lra. Qed.
Let EV : j * (V / j) = V. Proof. field. lra. Qed.

Let PD : 0 < D.
Proof. unfold D. destruct (Rle_dec Q V); auto. apply sqrt_lt_R0; auto. Qed.
Let jDD : V / 1000 <= j * D * D <= V /\ j * D <= a /\ V <= a * (V / (j * D)) .
Proof.
  assert (G : j * D * D <= V /\ V / 1000 <= j * D * D /\ j * D <= a).
  { unfold D. destruct (Rle_dec Q V) as [L|G].
    - rewrite EQ. fold Q. split; [auto|]. split; [|lra]. unfold Q. apply Rmult_le_reg_l with j; auto.
      replace (j * (a * (a / j))) with (a * (j * (a / j))) by ring. rewrite EQ. lra.
    - pose proof (sqrt_sqrt (V / j) ltac:(lra)) as SS.
      replace (j * sqrt (V / j) * sqrt (V / j)) with (j * (sqrt (V / j) * sqrt (V / j))) by ring. rewrite SS, EV.
      split; [lra|]. split; [lra|].
      apply Rnot_lt_le. intro C. assert (CC : a * a < j * sqrt (V / j) * (j * sqrt (V / j))) by (apply Rmult_gt_0_lt_compat; lra).
      replace (j * sqrt (V / j) * (j * sqrt (V / j))) with (j * (j * (sqrt (V / j) * sqrt (V / j)))) in CC by ring. rewrite SS, EV in CC.
      assert (V < Q) by lra. assert (j * V < j * Q) by (apply Rmult_lt_compat_l; auto).
      unfold Q in *. replace (j * (a * (a / j))) with (a * (j * (a / j))) in * by ring. rewrite EQ in *. lra. }
  destruct G as (G1 & G2 & G3). repeat split; auto.
  assert (0 < j * D) by (apply Rmult_lt_0_compat; auto).
  apply Rmult_le_reg_r with (j * D); auto. replace (a * (V / (j * D)) * (j * D)) with (V * a) by (field; lra). apply Rmult_le_compat_l; lra.
Qed.
Let PjD : 0 < j * D. Proof. apply Rmult_lt_0_compat; auto. Qed.
(** the part at constant acceleration *)
Let d2 := V / (j * D) - D.
Let d2_facts : 0 <= d2 /\ T = D + d2 + D /\ V = j * D * D + j * D * d2 /\ 2 * D <= T <= 1001 * D.
Proof.
  destruct jDD as ((L1 & L2) & L3 & L4).
  assert (E : V = j * D * D + j * D * d2) by (unfold d2; field; split; lra).
  assert (P : 0 <= d2). { apply Rmult_le_reg_l with (j * D); auto. lra. }
  assert (U : d2 <= 999 * D). { apply Rmult_le_reg_l with (j * D); auto. lra. }
  split; auto. split; [unfold T, d2; ring|]. split; auto. unfold T. unfold d2 in *. lra.
Qed.
Let range : / 8388608 <= D <= 262144.
Proof.
  destruct jDD as ((L1 & L2) & _). unfold plain in Hj. split; apply Rnot_lt_le; intro C.
  - assert (D * D < / 8388608 * / 8388608) by (apply Rmult_gt_0_lt_compat; lra).
    assert (j * D * D <= 1048576 * (D * D)). { rewrite Rmult_assoc. apply Rmult_le_compat_r; [apply Rlt_le, Rmult_lt_0_compat; auto|lra]. }
    lra.
  - assert (262144 * 262144 < D * D) by (apply Rmult_gt_0_lt_compat; lra).
    assert (/ 16384 * (D * D) <= j * D * D). { rewrite (Rmult_assoc j). apply Rmult_le_compat_r; [apply Rlt_le, Rmult_lt_0_compat; auto|lra]. }
    lra.
Qed.
Let rangeT : / 4194304 <= T <= 268435456.
Proof. destruct d2_facts as (_ & _ & _ & F). lra. Qed.
Lemma second_T : / 4194304 <= T <= 268435456. Proof. exact rangeT. Qed.

(** the exact ramp *)
Lemma second_ideal v0 v1 J A : (v0 = 0 /\ v1 = V /\ J = j /\ A = j * D) \/ (v0 = V /\ v1 = 0 /\ J = - j /\ A = - j * D) ->
  ideal V T j (mkR v0 v1 J A D d2).
Proof.
  intro H. destruct d2_facts as (F1 & F2 & F3 & F4). destruct jDD as ((L1 & L2) & L3 & L4).
  constructor; cbn [r_v0 r_v1 r_J r_A r_d1 r_d2]; auto.
  - destruct H as [(-> & -> & -> & ->)|(-> & -> & -> & ->)]; [left|right]; repeat split; lra.
  - destruct H as [(-> & -> & -> & ->)|(-> & -> & -> & ->)]; lra.
  - lra.
  - assert (AB : Rabs A = j * D).
    { destruct H as [(_ & _ & _ & ->)|(_ & _ & _ & ->)]; [|rewrite Ropp_mult_distr_l_reverse, Rabs_Ropp]; apply Rabs_pos_eq; lra. }
    rewrite AB, F2. lra.
  - assert (T * T <= 1001 * D * (1001 * D)) by (apply Rmult_le_compat; lra).
    apply Rle_trans with (j * (1001 * D * (1001 * D))); [rewrite Rmult_assoc; apply Rmult_le_compat_l; lra|]. lra.
  - right. split; [lra|]. destruct H as [(_ & _ & -> & ->)|(_ & _ & -> & ->)]; lra.
Qed.
Lemma second_good_acc d : d < 0 -> r_good secondOrder 0 V a d j (mkR 0 V j (j * D) D d2).
Proof.
  intro Hd. destruct d2_facts as (F1 & F2 & F3 & F4). destruct jDD as ((L1 & L2) & L3 & L4).
  unfold r_good. cbn [r_v0 r_v1 r_J r_A r_d1 r_d2]. repeat split; auto; try lra; try discriminate.
  intros. unfold D at 2. destruct (Rle_dec Q V) as [L|G]; [right; left; apply EQ|left].
  unfold d2, D. destruct (Rle_dec Q V); [lra|]. assert (0 < sqrt (V / j)) by (apply sqrt_lt_R0; auto).
  apply Rmult_eq_reg_r with (j * sqrt (V / j)); [|apply Rgt_not_eq, Rmult_lt_0_compat; auto].
  rewrite Rmult_0_l. replace ((V / (j * sqrt (V / j)) - sqrt (V / j)) * (j * sqrt (V / j))) with (V - j * (sqrt (V / j) * sqrt (V / j))) by (field; split; lra).
  rewrite sqrt_sqrt by lra. lra.
Qed.
Lemma second_good_dec a' : 0 < a' -> r_good secondOrder V 0 a' (- a) j (mkR V 0 (- j) (- j * D) D d2).
Proof.
  intro Hd. destruct d2_facts as (F1 & F2 & F3 & F4). destruct jDD as ((L1 & L2) & L3 & L4).
  unfold r_good. cbn [r_v0 r_v1 r_J r_A r_d1 r_d2]. repeat split; auto; try lra; try discriminate.
  intros. destruct (second_good_acc (-1) ltac:(lra)) as (_ & _ & _ & _ & _ & _ & GA & _).
  cbn [r_v0 r_v1 r_J r_A r_d1 r_d2] in GA. destruct (GA H) as (_ & [G|[G|G]]); [left; auto|right; right; lra|lra].
Qed.

(** scales *)
Let S : scl (a / j) /\ scl a /\ scl Q /\ scl (V / j) /\ scl (sqrt (V / j)) /\ scl V /\ scl (V / a) /\ scl T /\ scl (j * D) /\ scl (j * D * D) /\ scl (j * D * D * (1/2)) /\
  scl (j * D * D * D) /\ scl (j * D * D * D * (1/6)) /\ scl (V * D) /\ scl (V * T) /\ scl (V * T * (1/2)).
Proof.
  destruct jDD as ((L1 & L2) & L3 & L4). unfold plain in *.
  assert (R1 : scl (a / j)) by (apply (scl_div a j (/ 16384) 1048576 (/ 16384) 1048576); unfold lowest, highest; lra).
  assert (R2 : scl (V / j)) by (apply (scl_div V j (/ 65536) 2097152 (/ 16384) 1048576); unfold lowest, highest; lra).
  split; auto. split; [unfold scl, lowest, highest; lra|]. split.
  { unfold Q. apply (scl_mul a (a / j) (/ 16384) 1048576 (/ 17179869184) 17179869184); try (unfold lowest, highest; lra).
    split; apply Rmult_le_reg_l with j; auto; rewrite EQ; lra. }
  split; auto. split.
  { assert (/ 68719476736 <= V / j <= 34359738368) by (split; apply Rmult_le_reg_l with j; auto; rewrite EV; lra).
    pose proof (sqrt_sqrt (V / j) ltac:(lra)) as SS. assert (PS : 0 < sqrt (V / j)) by (apply sqrt_lt_R0; auto).
    unfold scl, lowest, highest. split; apply Rnot_lt_le; intro C.
    - assert (sqrt (V / j) * sqrt (V / j) < / 295147905179352825856 * / 295147905179352825856) by (apply Rmult_gt_0_lt_compat; lra). lra.
    - assert (1267650600228229401496703205376 * 1267650600228229401496703205376 < sqrt (V / j) * sqrt (V / j)) by (apply Rmult_gt_0_lt_compat; lra). lra. }
  split; [unfold scl, lowest, highest; lra|].
  split; [apply (scl_div V a (/ 65536) 2097152 (/ 16384) 1048576); unfold lowest, highest; lra|].
  split; [unfold scl, lowest, highest; lra|].
  split; [apply (scl_mul j D (/ 16384) 1048576 (/ 8388608) 262144); unfold lowest, highest; lra|].
  split; [unfold scl, lowest, highest; lra|].
  split; [unfold scl, lowest, highest; lra|].
  assert (R3 : scl (j * D * D * D)) by (apply (scl_mul (j * D * D) D (/ 65536000) 2097152 (/ 8388608) 262144); unfold lowest, highest; lra).
  split; auto.
  split; [apply (scl_mul (j * D * D * D) (1/6) (/ 65536000 * / 8388608) (2097152 * 262144) (1/6) (1/6)); unfold lowest, highest; try lra; split; apply Rmult_le_compat; lra|].
  split; [apply (scl_mul V D (/ 65536) 2097152 (/ 8388608) 262144); unfold lowest, highest; lra|].
  split; [apply (scl_mul V T (/ 65536) 2097152 (/ 4194304) 268435456); unfold lowest, highest; lra|].
  apply (scl_mul (V * T) (1/2) (/ 65536 * / 4194304) (2097152 * 268435456) (1/2) (1/2)); unfold lowest, highest; try lra; split; apply Rmult_le_compat; lra.
Qed.

(** what the computed pieces are close to *)
Lemma second_parts Vf af jf : fin32 Vf V -> fin32 af a -> fin32 jf j ->
  let d1 := ndiv K af jf in
  let q := nmul K (nmul K jf d1) d1 in
  exists qv, fin32 q qv /\ Rabs (qv - Q) <= 19/4 * (eps * Q) /\
  (V < qv -> fap D 6 (nsqrt K (ndiv K Vf jf)) D /\ fap T 8 (nofZ K 0) d2) /\
  (qv <= V -> fap D 6 d1 D /\ Rabs (V - Q) <= V /\ fap V (39/8) q Q /\ Rabs (V / a - a / j - d2) <= 39/8 * (eps * (V / a)) /\
              (V / a <= T / 2 \/ (V / a <= T /\ V / a - a / j = d2)) /\ Rabs (a - j * D) <= 3 * (eps * (j * D))).
Proof.
  intros FV Fa Fj d1 q. destruct S as (S1 & S2 & S3 & S4 & S5 & S6 & S7 & _).
  destruct d2_facts as (G1 & G2 & G3 & G4).
  assert (QP : 0 < Q) by (apply Rmult_lt_0_compat; auto).
  assert (F1 : fap (a / j) (9/8) d1 (a / j)).
  { pose proof (fap_div X a 0 af jf a j) as H. rewrite (Rabs_pos_eq j) in H by lra. eapply fap_weak; [apply H|lra]; auto; try lra.
    apply fap_exact; auto; lra. rewrite Rabs_pos_eq; lra. }
  assert (F2 : fap a (19/8) (nmul K jf d1) a).
  { apply (fap_eq _ _ _ (j * (a / j))); [|apply EQ]. rewrite <- EQ at 1.
    eapply fap_weak; [apply (fap_mul X j (a / j) 0 (9/8)); auto; try lra|lra].
    - apply fap_exact; auto; lra.
    - rewrite Rabs_pos_eq; lra.
    - rewrite Rabs_pos_eq; lra.
    - rewrite EQ. auto. }
  assert (F3 : fap Q (19/4) q Q).
  { unfold Q. eapply fap_weak; [apply (fap_mul X a (a / j) (19/8) (9/8)); auto; try lra|fold Q; lra]; rewrite Rabs_pos_eq; lra. }
  destruct F3 as (qv & Fq & Eq). exists qv. split; auto. split; auto. pose proof (Rabs_def3 _ _ Eq) as Eq'.
  assert (EsQ : eps * Q <= / 10000000 * Q) by (unfold eps; lra).
  assert (EqQ : 0 < eps * Q) by (apply Rmult_lt_0_compat; auto).
  (* sqrt (Q/j) = a/j *)
  assert (SQ : sqrt (Q / j) = a / j).
  { replace (Q / j) with (a / j * (a / j)) by (unfold Q; field; lra). apply sqrt_square. lra. }
  assert (QJ : 0 < Q / j) by (apply Rdiv_lt_0_compat; auto).
  split.
  - intro L.
    assert (F4 : fap (V / j) (9/8) (ndiv K Vf jf) (V / j)).
    { pose proof (fap_div X V 0 Vf jf V j) as H. rewrite (Rabs_pos_eq j) in H by lra. eapply fap_weak; [apply H|lra]; auto; try lra.
      apply fap_exact; auto; lra. rewrite Rabs_pos_eq; lra. }
    assert (F5 : fap (sqrt (V / j)) (9/4) (nsqrt K (ndiv K Vf jf)) (sqrt (V / j))).
    { eapply fap_weak; [apply (fap_sqrt X (9/8)); auto; lra|]. assert (0 < sqrt (V / j)) by (apply sqrt_lt_R0; auto). lra. }
    assert (Z : fin32 (nofZ K 0) 0) by (apply (fin_lit X 0); lia).
    unfold d2, D. destruct (Rle_dec Q V) as [LE|GT].
    + destruct (sqrt_near_up (V / j) (Q / j) (19/4 * eps) QJ) as (N1 & N2).
      { unfold Rdiv. apply Rmult_le_compat_r; auto. apply Rlt_le, Rinv_0_lt_compat; auto. }
      { replace (V / j - Q / j) with ((V - Q) / j) by (field; lra). replace (19/4 * eps * (Q / j)) with (19/4 * (eps * Q) / j) by (field; lra).
        unfold Rdiv. apply Rmult_le_compat_r; [apply Rlt_le, Rinv_0_lt_compat; auto|]. lra. }
      rewrite SQ in N1, N2. assert (EA : eps * (a / j) <= / 10000000 * (a / j)) by (unfold eps; lra).
      assert (EA0 : 0 < eps * (a / j)) by (apply Rmult_lt_0_compat; auto).
      split.
      * eapply fap_weak; [eapply (fap_moved (a / j) 3 _ (sqrt (V / j)) (a / j) 3)|lra].
        -- eapply fap_weak; [exact F5|]. lra.
        -- apply abs_le. lra.
      * exists 0. split; auto. rewrite EQ.
        assert (B : 0 <= V / a - a / j <= 19/4 * (eps * (a / j))).
        { split; apply Rmult_le_reg_l with a; auto; replace (a * (V / a - a / j)) with (V - Q) by (unfold Q; field; lra); [lra|].
          replace (a * (19/4 * (eps * (a / j)))) with (19/4 * (eps * Q)) by (unfold Q; ring). lra. }
        assert (DQ : D = a / j) by (unfold D; destruct (Rle_dec Q V); [auto|lra]). rewrite DQ in G4.
        assert (eps * (2 * (a / j)) <= eps * T) by (apply Rmult_le_compat_l; lra). apply abs_le. lra.
    + assert (DQ : D = sqrt (V / j)) by (unfold D; destruct (Rle_dec Q V); [lra|auto]).
      assert (0 < sqrt (V / j)) by (apply sqrt_lt_R0; auto). split.
      * eapply fap_weak; [exact F5|]. lra.
      * exists 0. split; auto. replace (V / (j * sqrt (V / j)) - sqrt (V / j)) with 0.
        -- unfold Rminus. rewrite Rplus_opp_r, Rabs_R0. assert (0 < eps * T) by (apply Rmult_lt_0_compat; lra). lra.
        -- symmetry. apply Rmult_eq_reg_r with (j * sqrt (V / j)); [|apply Rgt_not_eq, Rmult_lt_0_compat; auto].
           rewrite Rmult_0_l. replace ((V / (j * sqrt (V / j)) - sqrt (V / j)) * (j * sqrt (V / j))) with (V - j * (sqrt (V / j) * sqrt (V / j))) by (field; split; lra).
           rewrite sqrt_sqrt by lra. lra.
  - intro L.
    assert (VQ : Rabs (V - Q) <= V) by (apply abs_le; lra).
    assert (PVa : 0 < V / a) by (apply Rdiv_lt_0_compat; auto).
    assert (EVa : a * (V / a) = V) by (field; lra).
    assert (EVs : 0 < eps * V) by (apply Rmult_lt_0_compat; auto).
    destruct (Rle_dec Q V) as [LE|GT].
    + assert (DQ : D = a / j) by (unfold D; destruct (Rle_dec Q V); [auto|lra]).
      assert (DD : V / a - a / j = d2) by (unfold d2; rewrite DQ, EQ; reflexivity).
      rewrite DQ. split; [eapply fap_weak; [exact F1|lra]|]. split; auto.
      split; [eapply fap_weak; [exists qv; split; [exact Fq|exact Eq]|lra]|].
      split; [rewrite DD; unfold Rminus; rewrite Rplus_opp_r, Rabs_R0; assert (0 < eps * (V / a)) by (apply Rmult_lt_0_compat; auto); lra|].
      split; [right; split; [|exact DD]|].
      * unfold T. rewrite DQ, EQ. lra.
      * rewrite EQ. unfold Rminus. rewrite Rplus_opp_r, Rabs_R0. assert (0 < eps * a) by (apply Rmult_lt_0_compat; auto). lra.
    + assert (DQ : D = sqrt (V / j)) by (unfold D; destruct (Rle_dec Q V); [lra|auto]).
      assert (QV : Q <= V + 39/8 * (eps * V)).
      { assert (eps * Q <= eps * (1001/1000 * V)) by (apply Rmult_le_compat_l; lra). lra. }
      assert (PS : 0 < sqrt (V / j)) by (apply sqrt_lt_R0; auto).
      destruct (sqrt_near_up (Q / j) (V / j) (39/8 * eps) PVj) as (N1 & N2).
      { unfold Rdiv. apply Rmult_le_compat_r; [apply Rlt_le, Rinv_0_lt_compat; auto|lra]. }
      { replace (Q / j - V / j) with ((Q - V) / j) by (field; lra). replace (39/8 * eps * (V / j)) with (39/8 * (eps * V) / j) by (field; lra).
        unfold Rdiv. apply Rmult_le_compat_r; [apply Rlt_le, Rinv_0_lt_compat; auto|]. lra. }
      rewrite SQ, <- DQ in N1, N2.
      assert (d20 : d2 = 0).
      { apply Rmult_eq_reg_l with (j * D); [|lra]. rewrite Rmult_0_r. pose proof (sqrt_sqrt (V / j) ltac:(lra)) as SS. rewrite <- DQ in SS.
        assert (j * (D * D) = j * (V / j)) by (f_equal; auto). lra. }
      assert (EsD : eps * D <= / 10000000 * D) by (unfold eps; lra).
      assert (EsD0 : 0 < eps * D) by (apply Rmult_lt_0_compat; auto).
      split.
      * eapply fap_weak; [eapply (fap_moved D 3 _ (a / j) D 3)|lra].
        -- eapply fap_weak; [exact F1|]. lra.
        -- apply abs_le. lra.
      * split; auto. split.
        { eapply fap_weak; [exists qv; split; [exact Fq|exact Eq]|lra]. }
        split; [|split].
        { rewrite d20. apply abs_le. 
          assert (B : - (39/8 * (eps * (V / a))) <= V / a - a / j <= 0); [|lra].
          split; apply Rmult_le_reg_l with a; auto; replace (a * (V / a - a / j)) with (V - Q) by (unfold Q; field; lra); [|lra].
          replace (a * - (39/8 * (eps * (V / a)))) with (- (39/8 * (eps * (a * (V / a))))) by ring. rewrite EVa. lra. }
        { left. rewrite G2, d20. replace ((D + 0 + D) / 2) with D by field.
          apply Rmult_le_reg_l with a; auto. rewrite EVa. rewrite d20 in G3. destruct jDD as (_ & L3 & _).
          assert (j * D * D <= a * D) by (apply Rmult_le_compat_r; lra). lra. }
        { replace (a - j * D) with (j * (a / j - D)) by (rewrite <- EQ at 2; ring). rewrite Rabs_mult, (Rabs_pos_eq j) by lra.
          replace (3 * (eps * (j * D))) with (j * (3 * (eps * D))) by ring. apply Rmult_le_compat_l; [lra|]. apply abs_le. lra. }
Qed.

Section Pieces.
Variables (d1f d2f : sf).
Hypothesis F1 : fap D 6 d1f D. Hypothesis F2 : fap T 8 d2f d2.

Lemma monomials jf J : fin32 jf J -> Rabs J = j ->
  fap (j * D) (29/4) (nmul K jf d1f) (J * D) /\ fap (j * D * D) (29/2) (nmul K (nmul K jf d1f) d1f) (J * D * D) /\
  fap V 8 (nmul K (nmul K (nmul K jf d1f) d1f) (ndec K 5 1)) (J * D * D * (1/2)) /\
  fap (V * T) (21/10) (nmul K (nmul K (nmul K (nmul K jf d1f) d1f) d1f) (ndiv K (nofZ K 1) (nofZ K 6))) (J * D * D * D * (1/6)).
Proof.
  intros Fj EJ. destruct S as (S1 & S2 & S3 & S4 & S5 & S6 & S7 & S8 & S9 & S10 & S11 & S12 & S13 & S14 & S15 & S16).
  destruct jDD as ((L1 & L2) & L3 & L4). destruct d2_facts as (G1 & G2 & G3 & G4).
  assert (P2 : 0 < j * D * D) by (apply Rmult_lt_0_compat; auto). assert (P3 : 0 < j * D * D * D) by (apply Rmult_lt_0_compat; auto).
  assert (AD : Rabs D <= D) by (rewrite Rabs_pos_eq; lra).
  assert (B1 : Rabs (J * D) <= j * D) by (apply abs_mul; auto; lra).
  assert (B2 : Rabs (J * D * D) <= j * D * D) by (apply abs_mul; auto).
  assert (B3 : Rabs (J * D * D * D) <= j * D * D * D) by (apply abs_mul; auto).
  assert (H1 : fap (j * D) (29/4) (nmul K jf d1f) (J * D)).
  { eapply fap_weak; [apply (fap_mul X j D 0 6); try apply fap_exact; auto; try lra|]. lra. }
  assert (H2 : fap (j * D * D) (29/2) (nmul K (nmul K jf d1f) d1f) (J * D * D)).
  { eapply fap_weak; [apply (fap_mul X (j * D) D (29/4) 6); auto; try lra|]. lra. }
  assert (H3 : fap (j * D * D * D) (87/4) (nmul K (nmul K (nmul K jf d1f) d1f) d1f) (J * D * D * D)).
  { eapply fap_weak; [apply (fap_mul X (j * D * D) D (29/2) 6); auto; try lra|]. lra. }
  split; auto. split; auto. split.
  - eapply fap_weak; [apply (fap_mul X (j * D * D) (1/2) (29/2) 0); try apply fap_exact; try apply fin_half; auto; try lra|].
    + rewrite Rabs_pos_eq; lra.
    + lra.
  - eapply fap_weak; [apply (fap_mul X (j * D * D * D) (1/6) (87/4) (9/8)); try apply fap_sixth; auto; try lra|].
    + rewrite Rabs_pos_eq; lra.
    + assert (j * D * D * D <= V * (T / 2)) by (apply Rmult_le_compat; lra). lra.
Qed.
Lemma durations : fap T (25/2) (nadd K d1f d2f) (D + d2) /\ fap T 17 (nadd K (nadd K d1f d2f) d1f) T.
Proof.
  destruct S as (S1 & S2 & S3 & S4 & S5 & S6 & S7 & S8 & _). destruct d2_facts as (G1 & G2 & G3 & G4).
  assert (F1' : fap T 3 d1f D) by (eapply fap_weak; [exact F1|lra]).
  assert (H1 : fap T (25/2) (nadd K d1f d2f) (D + d2)).
  { eapply fap_weak; [apply (fap_add X T 3 8); auto; try lra|lra]. apply abs_le. lra. }
  split; auto. apply (fap_eq _ _ _ (D + d2 + D)); [|lra].
  eapply fap_weak; [apply (fap_add X T (25/2) 3); auto; try lra|lra]. apply abs_le. lra.
Qed.
Lemma lengths w : fin32 w V -> fap (V * T) 10 (nmul K (nmul K w (nadd K (nadd K d1f d2f) d1f)) (ndec K 5 1)) (V * T * (1/2)).
Proof.
  intro Fw. destruct S as (S1 & S2 & S3 & S4 & S5 & S6 & S7 & S8 & S9 & S10 & S11 & S12 & S13 & S14 & S15 & S16).
  destruct durations as (_ & H). assert (PVT : 0 < V * T) by (apply Rmult_lt_0_compat; lra).
  assert (H2 : fap (V * T) (73/4) (nmul K w (nadd K (nadd K d1f d2f) d1f)) (V * T)).
  { eapply fap_weak; [apply (fap_mul X V T 0 17); try apply fap_exact; auto; try lra|]; rewrite ?Rabs_pos_eq; lra. }
  eapply fap_weak; [apply (fap_mul X (V * T) (1/2) (73/4) 0); try apply fap_exact; try apply fin_half; auto; try lra|].
  - rewrite Rabs_pos_eq; lra.
  - rewrite Rabs_pos_eq; lra.
  - lra.
Qed.
Lemma second_close v0 v1 J A : (v0 = 0 /\ v1 = V /\ J = j /\ A = j * D) \/ (v0 = V /\ v1 = 0 /\ J = - j /\ A = - j * D) ->
  forall v0f v1f af df jf jf' w s2 s3 s1, fin32 v0f v0 -> fin32 v1f v1 -> fin32 jf j -> fin32 jf' J ->
  fap (j * D) (15/2) (if nltb K v0f v1f then af else df) A -> fin32 w V ->
  fap (V * T) 7 s1 (v0 * D + J * D * D * D * (1/6)) ->
  close X V T j (mkR v0 v1 J A D d2)
    (mkAD v0f v1f af df jf (nmul K (nmul K (nmul K jf' d1f) d1f) (ndec K 5 1)) s1 s2 s3
          (nmul K (nmul K w (nadd K (nadd K d1f d2f) d1f)) (ndec K 5 1)) d1f d2f (nadd K (nadd K d1f d2f) d1f)).
Proof.
  intros H v0f v1f af df jf jf' w s2 s3 s1 Fv0 Fv1 Fj Fj' FA Fw Fs. destruct durations as (H1 & H2).
  destruct jDD as ((L1 & L2) & L3 & L4). destruct d2_facts as (G1 & G2 & G3 & G4).
  constructor; cbn [r_v0 r_v1 r_J r_A r_d1 r_d2 ad_vStart ad_vEnd ad_jMax ad_d1d3 ad_d2 ad_duration ad_aMax ad_dMax ad_dV1 ad_s1 ad_length]; auto.
  - intro Z. lra.
  - eapply fap_weak; [exact FA|]. apply Rmult_le_compat_l; [lra|]. apply Rmult_le_reg_r with T; [lra|].
    replace (2 * V / T * T) with (2 * V) by (field; lra). rewrite G2 at 1. lra.
  - destruct (monomials jf' J Fj') as (_ & _ & M & _); auto.
    destruct H as [(_ & _ & -> & _)|(_ & _ & -> & _)]; [|rewrite Rabs_Ropp]; apply Rabs_pos_eq; lra.
  - apply (fap_eq _ _ _ (V * T * (1/2))); [apply lengths; auto|]. unfold r_L, r_T. cbn. rewrite <- G2.
    destruct H as [(-> & -> & _)|(-> & -> & _)]; ring.
Qed.
End Pieces.

Let JP : Rabs j = j. Proof. apply Rabs_pos_eq. lra. Qed.

Lemma second_acc p d : ad_vStart p = nofZ K 0 -> fin32 (ad_vEnd p) V -> fin32 (ad_aMax p) a -> fin32 (ad_jMax p) j -> d < 0 ->
  exists r, ideal V T j r /\ close X V T j r (ad_calculate K p secondOrder) /\ r_good secondOrder 0 V a d j r.
Proof.
  intros E0 F1 Fa Fj Hd. exists (mkR 0 V j (j * D) D d2).
  assert (Z : fin32 (nofZ K 0) 0) by (apply (fin_lit X 0); lia).
  assert (LT : nltb K (nofZ K 0) (ad_vEnd p) = true). { rewrite (K_ltb X _ _ _ _ Z F1). apply Raux.Rlt_bool_true. lra. }
  split; [apply second_ideal; auto|]. split; [|apply second_good_acc; auto].
  destruct S as (S1 & S2 & S3 & S4 & S5 & S6 & S7 & S8 & S9 & S10 & S11 & S12 & S13 & S14 & S15 & S16).
  destruct jDD as ((L1 & L2) & L3 & L4). destruct d2_facts as (G1 & G2 & G3 & G4).
  assert (FV : fin32 (nsub K (ad_vEnd p) (nofZ K 0)) V) by now apply sub_0_r.
  assert (Fw : fin32 (nadd K (nofZ K 0) (ad_vEnd p)) V) by now apply add_0_l.
  assert (PVT : 0 < V * T) by (apply Rmult_lt_0_compat; lra).
  (* the distance of the first part *)
  assert (H1 : forall d1f, fap D 6 d1f D ->
    fap (V * T) 7 (nadd K (nmul K (nofZ K 0) d1f) (nmul K (nmul K (nmul K (nmul K (ad_jMax p) d1f) d1f) d1f) (ndiv K (nofZ K 1) (nofZ K 6)))) (0 * D + j * D * D * D * (1/6))).
  { intros d1f Fd. destruct (monomials d1f Fd (ad_jMax p) j Fj JP) as (_ & _ & _ & M).
    assert (Fm : fap (V * T) 0 (nmul K (nofZ K 0) d1f) (0 * D)).
    { apply (fap_eq _ _ _ 0); [|ring]. destruct Fd as (x & Fx & _). apply fap_exact; [lra|]. eapply mul_0_l; eauto. }
    eapply fap_weak; [apply (fap_add X (V * T) 0 (21/10)); auto; try lra|lra].
    assert (0 < j * D * D * D) by (repeat apply Rmult_lt_0_compat; auto).
    assert (j * D * D * D <= V * (T / 2)) by (apply Rmult_le_compat; lra). apply abs_le. lra. }
  unfold ad_calculate. rewrite E0, LT.
  destruct (second_parts _ _ _ FV Fa Fj) as (qv & Fq & Eq & Q1 & Q2).
  rewrite (K_ltb X _ _ _ _ FV Fq).
  destruct (Raux.Rlt_bool V qv) eqn:B.
  - apply ltb_lt in B. destruct (Q1 B) as (Fd & Fd2).
    apply second_close; auto. rewrite LT.
    destruct (monomials _ Fd (ad_jMax p) j Fj JP) as (M & _). eapply fap_weak; [exact M|lra].
  - apply ltb_ge in B. destruct (Q2 B) as (Fd & B1 & Fq2 & N1 & N2 & N3).
    assert (PVa : 0 < V / a) by (apply Rdiv_lt_0_compat; auto).
    assert (F2 : fap T 8 (ndiv K (nsub K (nsub K (ad_vEnd p) (nofZ K 0)) (nmul K (nmul K (ad_jMax p) (ndiv K (ad_aMax p) (ad_jMax p))) (ndiv K (ad_aMax p) (ad_jMax p)))) (ad_aMax p)) d2).
    { assert (H2 : fap V 6 (nsub K (nsub K (ad_vEnd p) (nofZ K 0)) (nmul K (nmul K (ad_jMax p) (ndiv K (ad_aMax p) (ad_jMax p))) (ndiv K (ad_aMax p) (ad_jMax p)))) (V - Q)).
      { eapply fap_weak; [apply (fap_sub X V 0 (39/8)); auto; try lra|lra]. apply fap_exact; auto; lra. }
      assert (H3 : fap (V / a) (57/8) (ndiv K (nsub K (nsub K (ad_vEnd p) (nofZ K 0)) (nmul K (nmul K (ad_jMax p) (ndiv K (ad_aMax p) (ad_jMax p))) (ndiv K (ad_aMax p) (ad_jMax p)))) (ad_aMax p)) ((V - Q) / a)).
      { pose proof (fap_div X V 6 _ (ad_aMax p) (V - Q) a H2 Fa) as H. rewrite (Rabs_pos_eq a) in H by lra.
        eapply fap_weak; [apply H; auto; lra|lra]. }
      replace ((V - Q) / a) with (V / a - a / j) in H3 by (unfold Q; field; lra).
      destruct N2 as [N2|(N2 & N4)].
      - eapply fap_weak; [eapply fap_moved; [exact H3|exact N1]|]. lra.
      - rewrite N4 in H3. eapply fap_weak; [exact H3|]. lra. }
    apply second_close; auto. rewrite LT.
    exists a. split; auto. eapply Rle_trans; [exact N3|]. assert (0 < eps * (j * D)) by (apply Rmult_lt_0_compat; auto). lra.
Qed.
Lemma second_dec p a' : ad_vEnd p = nofZ K 0 -> fin32 (ad_vStart p) V -> fin32 (ad_dMax p) (- a) -> fin32 (ad_jMax p) j -> 0 < a' ->
  exists r, ideal V T j r /\ close X V T j r (ad_calculate K p secondOrder) /\ r_good secondOrder V 0 a' (- a) j r.
Proof.
  intros E0 F1 Fa Fj Hd. exists (mkR V 0 (- j) (- j * D) D d2).
  assert (Z : fin32 (nofZ K 0) 0) by (apply (fin_lit X 0); lia).
  assert (LT : nltb K (ad_vStart p) (nofZ K 0) = false). { rewrite (K_ltb X _ _ _ _ F1 Z). apply Raux.Rlt_bool_false. lra. }
  split; [apply second_ideal; auto|]. split; [|apply second_good_dec; auto].
  destruct S as (S1 & S2 & S3 & S4 & S5 & S6 & S7 & S8 & S9 & S10 & S11 & S12 & S13 & S14 & S15 & S16).
  destruct jDD as ((L1 & L2) & L3 & L4). destruct d2_facts as (G1 & G2 & G3 & G4).
  assert (FV : fin32 (nsub K (ad_vStart p) (nofZ K 0)) V) by now apply sub_0_r.
  assert (FVn : fin32 (nsub K (nofZ K 0) (ad_vStart p)) (- V)) by now apply sub_0_l.
  assert (Fw : fin32 (nadd K (ad_vStart p) (nofZ K 0)) V) by now apply add_0_r.
  assert (Fap : fin32 (nopp K (ad_dMax p)) a). { rewrite <- (Ropp_involutive a). now apply fin_opp. }
  assert (Fjn : fin32 (nopp K (ad_jMax p)) (- j)) by now apply fin_opp.
  assert (JN : Rabs (- j) = j) by (rewrite Rabs_Ropp; auto).
  assert (PVT : 0 < V * T) by (apply Rmult_lt_0_compat; lra).
  assert (H1 : forall d1f, fap D 6 d1f D ->
    fap (V * T) 7 (nsub K (nmul K (ad_vStart p) d1f) (nmul K (nmul K (nmul K (nmul K (ad_jMax p) d1f) d1f) d1f) (ndiv K (nofZ K 1) (nofZ K 6)))) (V * D + - j * D * D * D * (1/6))).
  { intros d1f Fd. destruct (monomials d1f Fd (ad_jMax p) j Fj JP) as (_ & _ & _ & M).
    assert (VD : V * D <= V * (T / 2)) by (apply Rmult_le_compat_l; lra).
    assert (Fm : fap (V * T) (29/8) (nmul K (ad_vStart p) d1f) (V * D)).
    { eapply fap_weak; [apply (fap_mul X V D 0 6); try apply fap_exact; auto; try lra|]; rewrite ?Rabs_pos_eq; lra. }
    apply (fap_eq _ _ _ (V * D - j * D * D * D * (1/6))); [|ring].
    eapply fap_weak; [apply (fap_sub X (V * T) (29/8) (21/10)); auto; try lra|lra].
    assert (0 < j * D * D * D) by (repeat apply Rmult_lt_0_compat; auto).
    assert (j * D * D * D <= V * (T / 2)) by (apply Rmult_le_compat; lra). assert (0 < V * D) by (apply Rmult_lt_0_compat; auto). apply abs_le. lra. }
  unfold ad_calculate. rewrite E0, LT.
  destruct (second_parts _ _ _ FV Fap Fj) as (qv & Fq & Eq & Q1 & Q2).
  rewrite (K_ltb X _ _ _ _ FV Fq).
  destruct (Raux.Rlt_bool V qv) eqn:B.
  - apply ltb_lt in B. destruct (Q1 B) as (Fd & Fd2).
    apply second_close; auto. rewrite LT.
    destruct (monomials _ Fd (nopp K (ad_jMax p)) (- j) Fjn JN) as (M & _). eapply fap_weak; [exact M|lra].
  - apply ltb_ge in B. destruct (Q2 B) as (Fd & B1 & Fq2 & N1 & N2 & N3).
    assert (PVa : 0 < V / a) by (apply Rdiv_lt_0_compat; auto).
    set (d1f := ndiv K (nopp K (ad_dMax p)) (ad_jMax p)) in *. set (q := nmul K (nmul K (ad_jMax p) d1f) d1f) in *.
    assert (F2 : fap T 8 (ndiv K (nadd K (nsub K (nofZ K 0) (ad_vStart p)) q) (ad_dMax p)) d2).
    { assert (H2 : fap V 6 (nadd K (nsub K (nofZ K 0) (ad_vStart p)) q) (- V + Q)).
      { eapply fap_weak; [apply (fap_add X V 0 (39/8)); auto; try lra|lra]. apply fap_exact; auto; lra.
        replace (- V + Q) with (- (V - Q)) by ring. rewrite Rabs_Ropp. auto. }
      assert (AN : Rabs (- a) = a) by (rewrite Rabs_Ropp, Rabs_pos_eq; lra).
      assert (H3 : fap (V / a) (57/8) (ndiv K (nadd K (nsub K (nofZ K 0) (ad_vStart p)) q) (ad_dMax p)) ((- V + Q) / - a)).
      { pose proof (fap_div X V 6 _ (ad_dMax p) (- V + Q) (- a) H2 Fa) as H. rewrite AN in H.
        eapply fap_weak; [apply H; auto; try lra|lra]. replace (- V + Q) with (- (V - Q)) by ring. rewrite Rabs_Ropp. auto. }
      replace ((- V + Q) / - a) with (V / a - a / j) in H3 by (unfold Q; field; lra).
      destruct N2 as [N2|(N2 & N4)].
      - eapply fap_weak; [eapply fap_moved; [exact H3|exact N1]|]. lra.
      - rewrite N4 in H3. eapply fap_weak; [exact H3|]. lra. }
    apply second_close; auto; [rewrite LT|exact (H1 _ Fd)].
    exists (- a). split; auto. replace (- a - - j * D) with (- (a - j * D)) by ring. rewrite Rabs_Ropp.
    eapply Rle_trans; [exact N3|]. assert (0 < eps * (j * D)) by (apply Rmult_lt_0_compat; auto). lra.
Qed.
End Second.
End Calc.
