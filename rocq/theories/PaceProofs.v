(** Slow programs can be followed in real time, and the pins follow them. *)
Require Import List Arith NArith ZArith Bool Reals Lra Lia ZifyBool ZifyNat.
From Verif Require Import Base EventModel StepModel StepSpec Num NumR MotionModel CtrlModel CtrlSpec CtrlProofs CtrlRSpec ProfileSpec GeomSpec GeomProofs RunSpec
  RunLegProofs RunProofs GcodeModel GcodeRSpec GText ProgramSpec ProgramProofs ReferenceSpec ReferenceProofs FlowModel FlowSpec FlowProofs FlowDenseProofs PaceSpec PaceCountProofs PaceSpeedProofs PaceFlowProofs StepSignalsProofs.
Import ListNotations.
Open Scope R_scope.

Lemma nth_cmd k i css : (k < length css)%nat -> nth k (cmd_at i css) None = nth i (nth k css []) None.
Proof. revert k. induction css as [|x l IH]; intros k H; cbn [length] in H; [lia|]. destruct k as [|k]; [reflexivity|]. cbn [cmd_at map nth]. apply IH. lia. Qed.
Lemma net_next l : forall k, (k < length l)%nat -> net (firstn (S k) l) = (net (firstn k l) + zdir (nth k l None))%Z.
Proof.
  induction l as [|x l IH]; intros k H; cbn [length] in H; [lia|]. destruct k as [|k]; [cbn; destruct x as [[]|]; reflexivity|].
  change (firstn (S (S k)) (x :: l)) with (x :: firstn (S k) l). change (firstn (S k) (x :: l)) with (x :: firstn k l). cbn [nth].
  change (net (x :: firstn (S k) l)) with (zdir x + net (firstn (S k) l))%Z. change (net (x :: firstn k l)) with (zdir x + net (firstn k l))%Z.
  rewrite IH by lia. lia.
Qed.
Lemma net_dirs_plus l l' : net_dirs (l ++ l') = (net_dirs l + net_dirs l')%Z.
Proof. unfold net_dirs. induction l as [|d l IH]; [reflexivity|]. cbn [app fold_right]. rewrite IH. lia. Qed.
Lemma cnt_plus c m1 : forall a m2, cnt c a (m1 + m2) = (cnt c a m1 + cnt c (a + m1) m2)%nat.
Proof.
  induction m1 as [|m1 IH]; intros a m2; cbn [cnt plus]; [rewrite Nat.add_0_r; reflexivity|].
  rewrite IH. replace (S a + m1)%nat with (a + S m1)%nat by lia. lia.
Qed.
Lemma cnt_beyond c n : (forall k, (n <= k)%nat -> c k = None) -> forall m a, (n <= a)%nat -> cnt c a m = 0%nat.
Proof. intros H. induction m as [|m IH]; intros a Ha; cbn [cnt]; auto. rewrite H by lia. cbn. apply IH. lia. Qed.
Lemma cnt_cut c n : (forall k, (n <= k)%nat -> c k = None) -> forall m a, cnt c a m = cnt c a (Nat.min m (n - a)).
Proof.
  intros H m a. destruct (le_lt_dec m (n - a)) as [L|L]; [rewrite Nat.min_l by lia; reflexivity|]. rewrite Nat.min_r by lia.
  replace m with ((n - a) + (m - (n - a)))%nat at 1 by lia. rewrite cnt_plus, (cnt_beyond c n H (m - (n - a)) (a + (n - a))) by lia. lia.
Qed.

(** The ticks with a command, and the commands. *)
Definition cmds3 (css : list (list (option dir))) (a m : nat) : nat :=
  (cnt (fun k => nth k (cmd_at 0 css) None) a m + cnt (fun k => nth k (cmd_at 1 css) None) a m + cnt (fun k => nth k (cmd_at 2 css) None) a m)%nat.
Lemma skipn_next {A} (l : list A) d : forall a, (a < length l)%nat -> skipn a l = nth a l d :: skipn (S a) l.
Proof. induction l as [|x l IH]; intros a H; cbn [length] in H; [lia|]. destruct a as [|a]; [reflexivity|]. cbn [skipn nth]. rewrite (IH a) by lia. reflexivity. Qed.
Lemma busy_count css : (forall cs, In cs css -> (length cs <= 3)%nat) -> forall m a, (length (filter busy (firstn m (skipn a css))) <= cmds3 css a m)%nat.
Proof.
  intros L3. induction m as [|m IH]; intro a; [cbn; lia|].
  destruct (le_lt_dec (length css) a) as [G|L]; [rewrite skipn_all2 by auto; cbn; lia|].
  rewrite (skipn_next css []) by auto. cbn [firstn filter]. specialize (IH (S a)). unfold cmds3 in *. cbn [cnt]. rewrite !nth_cmd by auto.
  assert (IN : In (nth a css []) css) by (apply nth_In; auto). specialize (L3 _ IN). destruct (nth a css []) as [|x [|y [|z [|? ?]]]]; cbn [length] in L3; try lia;
  match goal with |- context [if busy ?l then _ else _] => change (busy l) with (existsb is_cmd l) end; cbn [existsb nth is_cmd]; repeat match goal with |- context [is_cmd ?o] => destruct (is_cmd o) end; cbn [orb length]; lia.
Qed.

(** Pins so far. *)
Lemma pins_length m css : length (pins_of m css) = length css.
Proof.
  unfold pins_of. generalize (sg_setMaxTicks sg_zero m). induction css as [|cs l IH]; intro g; [reflexivity|]. cbn [sg_run].
  destruct (sg_tick g cs) as [g1 o]. specialize (IH g1). destruct (sg_run g1 l) as [[g2 ps] q]. cbn in *. congruence.
Qed.
Lemma pins_firstn m css k : firstn k (pins_of m css) = pins_of m (firstn k css).
Proof.
  unfold pins_of. generalize (sg_setMaxTicks sg_zero m). revert k. induction css as [|cs l IH]; intros [|k] g; try reflexivity. cbn [sg_run firstn].
  destruct (sg_tick g cs) as [g1 o]. specialize (IH k g1). destruct (sg_run g1 l) as [[g2 ps] q]. destruct (sg_run g1 (firstn k l)) as [[g3 ps3] q3]. cbn in *. congruence.
Qed.
Lemma spaced_firstn l : forall k, spaced l -> spaced (firstn k l).
Proof.
  induction l as [|x l IH]; intros [|k] S0; try exact I. cbn [firstn]. destruct l as [|y l]; [destruct k; exact I|]. destruct S0 as (S1 & S2).
  specialize (IH k S2). destruct k as [|k]; [exact I|]. cbn [firstn] in *. split; auto.
Qed.
Lemma last_firstn {A} (d : A) l : forall k, (0 < k <= length l)%nat -> last (firstn k l) d = nth (k - 1) l d.
Proof.
  induction l as [|x l IH]; intros k H; cbn [length] in H; [lia|]. destruct k as [|[|k]]; [lia|reflexivity|].
  specialize (IH (S k) ltac:(lia)). cbn [firstn] in *. replace (S (S k) - 1)%nat with (S (S k - 1)) by lia. cbn [nth]. rewrite <- IH.
  destruct l as [|y l]; [cbn in H; lia|]. reflexivity.
Qed.

Section Pace.
Variables (r : rmach) (w : R) (N : nat) (u : nat -> R).
Hypothesis RP : forall i, (i < 3)%nat -> 0 < rm_v r i /\ 0 < rm_a r i /\ rm_d r i < 0 /\ 0 < rm_k r i.
Hypothesis W0 : 0 < w.
Hypothesis CALM : forall i, (i < 3)%nat -> calm r w N i.
Variables (x0 : nat -> R) (legs : list leg) (css : list (list (option dir))) (p : list Z).
Hypothesis TK : ticked r w N x0 legs 0 p css.
Hypothesis P0 : forall i, (i < 3)%nat -> Rabs (rm_k r i * x0 i - IZR (nth i p 0%Z)) <= 55/100 + INR N * creep r w i.
Hypothesis LEGS : Forall (fun l => exists f fo, leg_ok r f fo l /\ slow r u f fo) legs.
Hypothesis CH : chained x0 (map lg_path legs).
Hypothesis L3 : forall cs, In cs css -> (length cs <= 3)%nat.

Lemma creep_pos i : (i < 3)%nat -> 0 <= INR N * creep r w i.
Proof.
  intro Hi. destruct (RP i Hi) as (_ & _ & D & K). apply Rmult_le_pos; [apply pos_INR|]. unfold creep.
  apply Rmult_le_pos; [apply Rmult_le_pos; lra|]. apply Rlt_le, Rmult_lt_0_compat; lra.
Qed.
Lemma axis_count i g : (i < 3)%nat -> 0 <= u i -> 0 < g -> rm_k r i * turn r i * (w * w) * (g * g) <= 36/100 ->
  forall m a, (a + m <= length css)%nat ->
  INR (cnt (fun k => nth k (cmd_at i css) None) a m) <= rm_k r i * u i * w * INR m + (1 + INR N * creep r w i) * (2 + 2 * (INR m / g)).
Proof.
  intros Hi U0 G0 GB. destruct (RP i Hi) as (_ & RA & RD & RK).
  assert (RP' : forall j, (j < 3)%nat -> 0 < rm_a r j /\ rm_d r j < 0) by (intros j Hj; destruct (RP j Hj) as (_ & ? & ? & _); auto).
  destruct (where_paced r u i legs RP' Hi U0 LEGS x0 CH) as (V & _ & WX & PC).
  assert (TP : 0 < turn r i) by (unfold turn; pose proof (Rmax_l (rm_a r i) (- rm_d r i)); lra).
  assert (LC : length (cmd_at i css) = length css) by apply map_length.
  apply (count_lemma (fun k => rm_k r i * where_at x0 legs (INR k * w) i) (fun k => (nth i p 0 + net (firstn k (cmd_at i css)))%Z)).
  - intros k Hk. rewrite net_next by lia. lia.
  - intros k d Hk Hc. destruct (TK k i Hk Hi) as (_ & T). destruct (T d Hc) as (_ & T'). specialize (T' (CALM i Hi)). rewrite Rplus_0_l in T'. exact T'.
  - intros [|k] Hk.
    + rewrite Rmult_0_l, WX. cbn [firstn net fold_right]. rewrite Z.add_0_r. apply P0; auto.
    + destruct (TK k i ltac:(lia) Hi) as (T & _). rewrite Rplus_0_l in T. exact T.
  - intros k Hk. pose proof (pos_INR k) as K0. assert (INR k * w <= INR (S k) * w) by (apply Rmult_le_compat_r; [lra|apply le_INR; lia]).
    assert (0 <= INR k * w) by (apply Rmult_le_pos; lra).
    pose proof (pc_int _ _ _ _ _ (PC (INR (S k) * w)) (INR k * w) (INR (S k) * w) (- u i) (u i) ltac:(lra) ltac:(lra)) as I.
    assert (B : forall t, INR k * w <= t <= INR (S k) * w -> - u i <= V t <= u i).
    { intros t Ht. pose proof (pc_max _ _ _ _ _ (PC (INR (S k) * w)) t ltac:(lra)) as B. pose proof (Rle_abs (V t)). pose proof (Rle_abs (- V t)). rewrite Rabs_Ropp in *. lra. }
    specialize (I B). replace (INR (S k) * w - INR k * w) with w in I by (rewrite S_INR; ring).
    rewrite <- Rmult_minus_distr_l, Rabs_mult, (Rabs_right (rm_k r i)) by lra. rewrite Rmult_assoc. apply Rmult_le_compat_l; [lra|]. apply Rabs_le. lra.
  - assert (H : forall W V', (forall T, paced (u i) (turn r i) T W V') -> forall k1 k2 k3 k4, (k1 < k2 <= k3)%nat -> (k3 < k4 <= length css)%nat ->
      rm_k r i * W (INR k2 * w) - rm_k r i * W (INR k1 * w) <= - (1/10) -> 1/10 <= rm_k r i * W (INR k4 * w) - rm_k r i * W (INR k3 * w) -> g <= INR (k4 - k1)).
    { clear PC WX V. intros W V PC k1 k2 k3 k4 H1 H2 D1 D2. set (e := / (10 * rm_k r i)). assert (E0 : 0 < e) by (apply Rinv_0_lt_compat; lra).
      assert (KE : rm_k r i * e = 1/10) by (unfold e; field; lra).
      assert (INW : forall a b, (a < b)%nat -> INR a * w < INR b * w) by (intros a b L; apply Rmult_lt_compat_r; [lra|apply lt_INR; auto]).
      assert (INE : forall a b, (a <= b)%nat -> INR a * w <= INR b * w) by (intros a b L; apply Rmult_le_compat_r; [lra|apply le_INR; auto]).
      assert (Z1 : 0 <= INR k1 * w) by (apply Rmult_le_pos; [apply pos_INR|lra]).
      pose proof (turns _ _ _ _ _ (INR k1 * w) (INR k2 * w) (INR k3 * w) (INR k4 * w) e (PC (INR k4 * w)) E0 ltac:(lra)) as TU.
      pose proof (INW k1 k2 ltac:(lia)). pose proof (INE k2 k3 ltac:(lia)). pose proof (INW k3 k4 ltac:(lia)).
      specialize (TU ltac:(lra) ltac:(lra) ltac:(lra)).
      assert (Q1 : W (INR k2 * w) - W (INR k1 * w) <= - e).
      { apply (Rmult_le_reg_l (rm_k r i)); [lra|]. rewrite Rmult_minus_distr_l, Ropp_mult_distr_r_reverse, KE. exact D1. }
      assert (Q2 : e <= W (INR k4 * w) - W (INR k3 * w)).
      { apply (Rmult_le_reg_l (rm_k r i)); [lra|]. rewrite Rmult_minus_distr_l, KE. exact D2. }
      specialize (TU Q1 Q2). rewrite minus_INR by lia. rewrite <- Rmult_minus_distr_r in TU. set (L := INR k4 - INR k1) in *.
      assert (LP : 0 < L) by (unfold L; pose proof (lt_INR k1 k4 ltac:(lia)); lra).
      assert (KL : 36/100 <= rm_k r i * turn r i * (w * w) * (L * L)).
      { apply (Rmult_le_compat_l (rm_k r i)) in TU; [|lra]. replace (rm_k r i * (4 * (9/10 * e))) with (4 * (9/10) * (rm_k r i * e)) in TU by ring. rewrite KE in TU.
        replace (rm_k r i * turn r i * (w * w) * (L * L)) with (rm_k r i * (turn r i * (L * w * (L * w)))) by ring. lra. }
      destruct (Rle_lt_dec g L) as [|C]; auto. exfalso.
      assert (KP : 0 < rm_k r i * turn r i * (w * w)) by (repeat apply Rmult_lt_0_compat; lra).
      assert (LG : L * L < g * g) by (apply Rmult_gt_0_lt_compat; lra).
      apply (Rmult_lt_compat_l _ _ _ KP) in LG. lra. }
    intros [] k1 k2 k3 k4 H1 H2 D1 D2; cbn [sgn zdir] in D1, D2.
    + apply (H _ _ PC k1 k2 k3 k4 H1 H2); lra.
    + apply (H _ _ (fun T => paced_opp _ _ _ _ _ (PC T)) k1 k2 k3 k4 H1 H2); lra.
  - apply creep_pos; auto.
  - apply Rmult_le_pos; [apply Rmult_le_pos|]; lra.
  - exact G0.
Qed.

Lemma few_lemma : moderate r w N u -> few css.
Proof.
  intros (g & HG & SUM) j. pose proof (busy_count css L3 750 j) as B. set (m := Nat.min 750 (length css - j)).
  assert (AX : forall i, (i < 3)%nat -> INR (cnt (fun k => nth k (cmd_at i css) None) j 750) <=
    rm_k r i * u i * w * 750 + (1 + INR N * creep r w i) * (2 + 2 * (750 / g i))).
  { intros i Hi. destruct (HG i Hi) as (U0 & G0 & GB). destruct (RP i Hi) as (_ & _ & _ & RK). pose proof (creep_pos i Hi) as CP.
    rewrite (cnt_cut _ (length css)) by (intros k Hk; apply nth_overflow; unfold cmd_at; rewrite map_length; auto). fold m.
    destruct (le_lt_dec (length css) j) as [G|L].
    { replace m with 0%nat by lia. cbn [cnt INR]. assert (0 <= rm_k r i * u i * w) by (apply Rmult_le_pos; [apply Rmult_le_pos|]; lra).
      assert (0 < 750 / g i) by (apply Rdiv_lt_0_compat; lra). assert (0 <= (1 + INR N * creep r w i) * (2 + 2 * (750 / g i))) by (apply Rmult_le_pos; lra). lra. }
    eapply Rle_trans; [apply (axis_count i (g i) Hi U0 G0 GB); lia|].
    assert (M7 : INR m <= 750) by (replace 750 with (INR 750) by (cbn; lra); apply le_INR; lia).
    assert (0 <= rm_k r i * u i * w) by (apply Rmult_le_pos; [apply Rmult_le_pos|]; lra).
    apply Rplus_le_compat; [apply Rmult_le_compat_l; auto|]. apply Rmult_le_compat_l; [lra|]. apply Rplus_le_compat_l, Rmult_le_compat_l; [lra|].
    apply Rmult_le_compat_r; [apply Rlt_le, Rinv_0_lt_compat; lra|exact M7]. }
  cbn [map rsum fold_right] in SUM. pose proof (AX 0%nat ltac:(lia)). pose proof (AX 1%nat ltac:(lia)). pose proof (AX 2%nat ltac:(lia)).
  assert (T : INR (cmds3 css j 750) < INR 84). { unfold cmds3. rewrite !plus_INR. replace (INR 84) with 84 by (cbn; lra). lra. }
  apply INR_lt in T. lia.
Qed.

Hypothesis SP : forall i, (i < 3)%nat -> spaced (cmd_at i css).
Lemma pins_lemma m z pins x a : repeat 0%N z ++ pins_of m css = pins ++ x -> (a < 3)%nat ->
  let q := IZR (nth a p 0%Z + net_dirs (pulses (N.of_nat a) false pins)) in
  let t := INR (length pins - z) * w in
  Rabs (rm_k r a * where_at x0 legs t a - q) <= 155/100 + INR N * creep r w a /\
  (total legs < t -> Rabs (rm_k r a * end_of x0 (map lg_path legs) a - q) <= 55/100 + INR N * creep r w a).
Proof.
  intros EX Ha q t. pose proof (creep_pos a Ha) as CP.
  assert (AX : (N.of_nat a < nmbrAxis)%N) by (unfold nmbrAxis; lia).
  assert (FM : Forall (leg_moves r) legs).
  { eapply Forall_impl; [|exact LEGS]. intros l (f & fo & LO & _). eapply leg_ok_moves; eauto. }
  assert (Z0 : forall k l, pulses (N.of_nat a) false (repeat 0%N k ++ l) = pulses (N.of_nat a) false l).
  { induction k as [|k IH]; intro l; cbn [repeat app pulses]; [reflexivity|]. unfold step_pin at 1 2. rewrite !N.bits_0. cbn [andb app]. apply IH. }
  destruct (le_lt_dec (length pins) z) as [L|L].
  - assert (E0 : pulses (N.of_nat a) false pins = []).
    { assert (EP : pins = repeat 0%N (length pins)).
      { apply (f_equal (firstn (length pins))) in EX. rewrite !firstn_app, repeat_length, firstn_all, Nat.sub_diag in EX. cbn [firstn] in EX.
        replace (length pins - z)%nat with 0%nat in EX by lia. cbn [firstn] in EX. rewrite !app_nil_r in EX. rewrite <- EX at 1.
        replace z with (length pins + (z - length pins))%nat at 1 by lia. rewrite repeat_app, firstn_app, repeat_length, Nat.sub_diag. cbn [firstn].
        rewrite app_nil_r. rewrite firstn_all2; [reflexivity|rewrite repeat_length; lia]. }
      rewrite EP, <- (app_nil_r (repeat _ _)), Z0. reflexivity. }
    unfold q, t. replace (length pins - z)%nat with 0%nat by lia. rewrite E0. cbn [net_dirs fold_right INR]. rewrite Z.add_0_r, Rmult_0_l.
    assert (WX : where_at x0 legs 0 a = x0 a).
    { destruct legs as [|l ls]; [reflexivity|]. rewrite where_now; [|inversion FM as [|? ? LM ?]; subst; cbn; pose proof (lm_T _ _ LM); lra].
      inversion FM as [|? ? LM ?]; subst. cbn [map chained] in CH. destruct CH as (C1 & _). cbn [now]. rewrite (lm_s0 _ _ LM). apply C1; auto. }
    rewrite WX. specialize (P0 a Ha). split; [lra|]. intro TL. exfalso. revert TL. apply Rle_not_lt. unfold total, rsum. clear - FM. induction FM as [|l ls LM FM IH]; cbn [map fold_right]; [lra|].
    pose proof (lm_T _ _ LM). lra.
  - set (k := (length pins - z)%nat) in *.
    assert (EP : pins = repeat 0%N z ++ firstn k (pins_of m css)).
    { apply (f_equal (firstn (length pins))) in EX. rewrite !firstn_app, repeat_length, firstn_all, Nat.sub_diag in EX. cbn [firstn] in EX.
      rewrite app_nil_r in EX. rewrite firstn_all2 in EX by (rewrite repeat_length; lia). symmetry. exact EX. }
    assert (KL : (k <= length css)%nat).
    { apply (f_equal (@length _)) in EX. rewrite !app_length, repeat_length, pins_length in EX. lia. }
    assert (PU : pulses (N.of_nat a) false pins = pulses (N.of_nat a) false (pins_of m (firstn k css))).
    { rewrite EP, Z0, pins_firstn. reflexivity. }
    assert (SK : spaced (cmd_at (N.to_nat (N.of_nat a)) (firstn k css))).
    { rewrite Nat2N.id. unfold cmd_at. rewrite <- firstn_map. apply spaced_firstn. apply SP; auto. }
    assert (KM : (k - 1 < length css)%nat) by lia. destruct (TK (k - 1)%nat a KM Ha) as (T1 & T2). replace (S (k - 1)) with k in T1, T2 by lia.
    rewrite Rplus_0_l in T1, T2. fold t in T1, T2.
    assert (CF : cmd_at a (firstn k css) = firstn k (cmd_at a css)) by (unfold cmd_at; symmetry; apply firstn_map).
    split.
    + destruct (pulses_pending m (firstn k css) (N.of_nat a) AX SK) as (pend & LP & PP). rewrite Nat2N.id, CF, <- PU in PP.
      apply (f_equal net_dirs) in PP. rewrite net_commanded in PP. rewrite <- PP in T1.
      assert (ND : exists e, net_dirs (pulses (N.of_nat a) false pins ++ pend) = (net_dirs (pulses (N.of_nat a) false pins) + e)%Z /\ (Z.abs e <= 1)%Z).
      { exists (net_dirs pend). split; [apply net_dirs_plus|].
        destruct pend as [|d [|? ?]]; cbn in LP; try lia; [cbn; lia|destruct d; cbn; lia]. }
      destruct ND as (e & EN & EB). rewrite EN, Z.add_assoc, plus_IZR in T1. fold q in T1.
      assert (Rabs (IZR e) <= 1) by (rewrite <- abs_IZR; apply IZR_le; auto).
      replace (rm_k r a * where_at x0 legs t a - q) with ((rm_k r a * where_at x0 legs t a - (q + IZR e)) + IZR e) by ring.
      eapply Rle_trans; [apply Rabs_triang|]. lra.
    + intro TL. assert (NO : nth (k - 1) (cmd_at a css) None = None).
      { destruct (nth (k - 1) (cmd_at a css) None) as [d|] eqn:ED; auto. destruct (T2 d eq_refl) as (NE & _).
        destruct (locate_total r legs x0 t FM) as (LT & _). rewrite (LT TL) in NE. cbn in NE. congruence. }
      assert (LA : last (cmd_at (N.to_nat (N.of_nat a)) (firstn k css)) None = None).
      { rewrite Nat2N.id, CF, last_firstn by (unfold cmd_at; rewrite map_length; lia). exact NO. }
      pose proof (pulses_done m (firstn k css) (N.of_nat a) AX SK LA) as PD. rewrite Nat2N.id, CF, <- PU in PD.
      apply (f_equal net_dirs) in PD. rewrite net_commanded in PD. unfold q. rewrite PD.
      assert (WE : where_at x0 legs t a = end_of x0 (map lg_path legs) a).
      { unfold where_at. rewrite (proj1 (locate_total r legs x0 t FM) TL). reflexivity. }
      rewrite <- WE. exact T1.
Qed.
End Pace.

(** One record for every call. *)
Lemma asked_records M ops : forall c c' recs, c_run x_arith M c ops = Ok (c', recs) -> length recs = asked ops.
Proof.
  induction ops as [|o ops IH]; intros c c' recs H; cbn [c_run rbind] in H; [injection H as <- <-; reflexivity|].
  destruct (c_step x_arith M c o) as [[c1 s1]|] eqn:E1; [|discriminate]. cbn [rbind] in H.
  destruct (c_run x_arith M c1 ops) as [[c2 s2]|] eqn:E2; [|discriminate]. cbn [rbind] in H. injection H as <- <-.
  rewrite app_length, (IH _ _ _ E2). unfold asked. cbn [filter]. unfold c_step in E1.
  destruct o; try (injection E1 as <- <-; reflexivity). destruct (c_calc _ _ _ _) as [[[? ?]|]|]; cbn [rbind] in E1; try discriminate. injection E1 as <- <-. reflexivity.
Qed.
Lemma asked_script first ops : asked (script first ops) = asked ops.
Proof.
  unfold asked, script. rewrite filter_app, app_length. cbn [filter]. replace (length (filter _ (map OAppend first))) with 0%nat; [reflexivity|].
  induction first as [|m l IH]; cbn [map filter]; auto.
Qed.

Section Reference.
Variables (M : machine xr) (r : rmach) (w : R) (N : nat) (u : nat -> R).
Hypothesis MI : machine_is M r.
Hypothesis W0 : 0 < w.
Hypothesis RATE : forall i, (i < 3)%nat -> tick_rate r w i + INR N * creep r w i <= 1.
Hypothesis CALM : forall i, (i < 3)%nat -> calm r w N i.
Hypothesis MOD : moderate r w N u.

Lemma reference_real_time ls wss mvs s : Forall2 written ls wss -> interp rs_start wss mvs s -> Forall (possible r) mvs -> (length mvs <= N)%nat ->
  (forall mv l, In mv mvs -> does r mv l -> short w l) -> Forall (keeps r u) mvs ->
  exists c' m' outs, rprogram (gcode0 x_num) (sm_new x_num) ls = Ok (c', m', outs) /\ length (sent outs) = length mvs /\
  forall first ops, passed M (c_init x_arith 375 (XF w)) (sent outs) first ops ->
  exists c recs legs, c_run x_arith M (c_init x_arith 375 (XF w)) (script first ops) = Ok (c, recs) /\ Forall2 (does r) mvs legs /\
  forall fops, steady fops -> (passes_in fops <= asked ops)%nat ->
  let '(f, pins) := flow_run (stream recs) (flow_init sb0) fops in
  sb_lastError (fl_b f) = ev_none /\ length pins = ticks_in fops /\
  forall a, (a < 3)%nat ->
    let t := INR (ticks_in fops - 952) * w in
    let n := net_dirs (pulses (N.of_nat a) false pins) in
    Rabs (rm_k r a * where_at (fun _ => 0) legs t a - IZR n) <= 155/100 + INR N * creep r w a /\
    (total legs < t -> Rabs (rm_k r a * rs_pos s a - IZR n) <= 55/100 + INR N * creep r w a) /\
    (forall z, total legs < t -> INR N * creep r w a <= 4/10 -> rm_k r a * rs_pos s a = IZR z -> n = z).
Proof.
  intros F I PO LN SH KE.
  destruct (reference_traced M r w N MI W0 RATE ls wss mvs s F I PO LN SH) as (c' & m' & outs & A1 & _ & A3 & RUN). exists c', m', outs. split; auto. split; auto.
  intros first ops PA. destruct (RUN 375%N first ops eq_refl PA) as (c & recs & legs & J1 & J2 & _ & _ & _ & _ & _ & TR & CH & EN).
  exists c, recs, legs. split; auto. split; auto.
  destruct TR as (css & CV & _ & TK). destruct CV as (L3 & _ & RE & _ & SP).
  assert (ER : recs = recs_of 375 css) by (symmetry; exact RE).
  assert (RP : forall i, (i < 3)%nat -> 0 < rm_v r i /\ 0 < rm_a r i /\ rm_d r i < 0 /\ 0 < rm_k r i).
  { intros i Hi. destruct MI as (_ & _ & MX). destruct (MX i Hi) as (_ & _ & _ & _ & ?). auto. }
  assert (LG : Forall (fun l => exists f fo, leg_ok r f fo l /\ slow r u f fo) legs).
  { clear - J2 KE. induction J2 as [|mv l mvs legs D J2 IH]; [constructor|]. inversion KE as [|? ? K KE']; subst. constructor; [|apply IH; auto].
    destruct D as (_ & _ & LO). exists (speed_of mv (pa_len (lg_path l))), 1. split; auto. intros i Hi. destruct (K i Hi) as [V|(NR & NI & FB)]; [left; auto|right].
    unfold speed_of. rewrite NI. exists (mv_F mv / 60). split; [destruct (mv_mode mv); congruence|lra]. }
  assert (P0 : forall i, (i < 3)%nat -> Rabs (rm_k r i * 0 - IZR (nth i (c_pos (c_init x_arith 375 (XF w))) 0%Z)) <= 55/100 + INR N * creep r w i).
  { intros i Hi. pose proof (creep_pos r w N RP W0 i Hi) as CP. replace (nth i (c_pos (c_init x_arith 375 (XF w))) 0%Z) with 0%Z by (destruct i as [|[|[|?]]]; [reflexivity..|lia]).
    rewrite Rmult_0_r, Rminus_diag_eq, Rabs_R0 by auto. lra. }
  assert (FW : few css) by (eapply few_lemma; eauto).
  assert (NC : forall i, (i < 3)%nat -> nth i (c_pos (c_init x_arith 375 (XF w))) 0%Z = 0%Z) by (intros [|[|[|?]]] Hi; [reflexivity..|lia]).
  intros fops ST PL. pose proof (real_time_lemma css fops FW) as RT. cbv zeta in RT. rewrite <- ER in RT.
  destruct (records_lemma 375 css ltac:(reflexivity)) as (p & n & EP & _ & _ & B). fold (recs_of 375 css) in EP, B. rewrite <- ER in EP, B.
  change (N.max 1 375) with 375%N in B.
  assert (PR : prompt (stream recs) 376 0 (flow_init sb0) fops).
  { apply steady_prompt; auto. apply stream_bounded; exact B.
    apply stream_sparse. intros a b c0 E L. apply (dense_lemma css a b c0 FW); [rewrite <- ER; exact E|exact L]. }
  specialize (RT PR). pose proof (flow_n (stream recs) fops (flow_init sb0)) as FN.
  destruct (flow_run (stream recs) (flow_init sb0) fops) as [f pins]. cbn [fst flow_init fl_n] in FN.
  pose proof (asked_records _ _ _ _ _ J1) as AR. rewrite asked_script in AR. destruct (RT ltac:(lia)) as (E1 & E2 & x & EX).
  split; auto. split; auto. intros a Ha t n0.
  assert (SPA : forall i, (i < 3)%nat -> spaced (cmd_at i css)) by (intros i Hi; apply SP; auto).
  pose proof (pins_lemma r w N u RP W0 CALM (fun _ => 0) legs css (c_pos (c_init x_arith 375 (XF w))) TK P0 LG CH SPA 375%N 952%nat pins x a EX Ha) as PL'.
  cbv zeta in PL'. rewrite NC in PL' by auto. rewrite Z.add_0_l, E2, EN in PL' by auto. fold t n0 in PL'. destruct PL' as (Q1 & Q2).
  split; [exact Q1|]. split; [exact Q2|]. intros z TL SM EZ. specialize (Q2 TL). rewrite EZ, <- minus_IZR, <- abs_IZR in Q2.
  assert (L : (Z.abs (z - n0) < 1)%Z) by (apply lt_IZR; lra). lia.
Qed.
End Reference.
