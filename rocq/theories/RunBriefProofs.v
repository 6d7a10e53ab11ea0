(** How long a motion can take at most. *)
Require Import List Arith NArith ZArith Bool Reals Lra Lia.
From Verif Require Import Num NumR MotionModel CtrlModel ProfileSpec GeomSpec RunSpec.
Open Scope R_scope.

Lemma share_le P i : path_ok P -> (i < 3)%nat -> Rabs (share P i) <= 1.
Proof.
  intros (LP & OK) Hi. cbv zeta in OK. unfold share. destruct (on_arc P i) eqn:E; [rewrite Rabs_R1; lra|].
  assert (SQ : forall x, 0 <= sq x) by (intro; unfold sq; apply Rle_0_sqr).
  assert (PO : forall (b : bool) x, 0 <= if b then 0 else sq x) by (intros [] x; [lra|apply SQ]).
  assert (H : sq (pa_delta P i) <= sq (pa_len P)).
  { pose proof (PO (on_arc P 0%nat) (pa_delta P 0%nat)). pose proof (PO (on_arc P 1%nat) (pa_delta P 1%nat)). pose proof (PO (on_arc P 2%nat) (pa_delta P 2%nat)).
    assert (K : sq (pa_delta P i) = if on_arc P i then 0 else sq (pa_delta P i)) by (rewrite E; reflexivity).
    destruct (pa_arc P) as [a|].
    - destruct OK as (_ & _ & _ & _ & ->). pose proof (SQ (ar_r a * ar_da a)). destruct i as [|[|[|i]]]; [| | |lia]; lra.
    - rewrite OK. destruct i as [|[|[|i]]]; [| | |lia]; lra. }
  unfold Rdiv. rewrite Rabs_mult, (Rabs_pos_eq (/ pa_len P)) by (apply Rlt_le, Rinv_0_lt_compat; auto).
  apply Rmult_le_reg_r with (pa_len P); auto. rewrite Rmult_assoc, Rinv_l, Rmult_1_r, Rmult_1_l by lra.
  unfold sq in H. apply Rsqr_le_abs_0 in H. rewrite (Rabs_pos_eq (pa_len P)) in H by lra. exact H.
Qed.
Lemma share_up V s b : 0 <= s <= 1 -> 0 <= V -> V * s = b -> b <= V.
Proof. intros S P <-. rewrite <- (Rmult_1_r V) at 2. apply Rmult_le_compat_l; lra. Qed.
Lemma sq_up a b : 0 <= a -> 0 < b -> a * a <= b * b -> a <= b.
Proof. intros A B H. destruct (Rle_lt_dec a b) as [|L]; auto. assert (b * b < a * a) by (apply Rmult_le_0_lt_compat; lra). lra. Qed.

(** [v] is a speed the motion reaches in any case. *)
Definition sure (r : rmach) (f : xr) (fo : R) (P : path) (v : R) : Prop :=
  0 < v /\ (forall i, (i < 3)%nat -> v <= rm_v r i) /\
  (forall a i, pa_arc P = Some a -> (i < 3)%nat -> v * v / ar_r a <= rm_a r i) /\ (forall x, f = XF x -> v <= x * fo) /\
  (forall i, (i < 3)%nat -> v * v <= pa_len P * rm_a r i /\ v * v <= pa_len P * - rm_d r i).
Lemma leg_time r f fo l v : sure r f fo (lg_path l) v -> leg_ok r f fo l -> lg_T l <= 2 * pa_len (lg_path l) / v.
Proof.
  set (P := lg_path l). intros (V0 & HV & HA & HF & HT) (OK & _ & V & a & d & vm & vv & acc & LO & [VM _] & _ & _ & TOP & _ & T). fold P in OK, LO, TOP, T.
  assert (LN : 0 < pa_len P) by apply OK. assert (VL : v <= vm).
  { destruct TOP as [->|[(x & F & ->)|TR]].
    - destruct (lo_vmax _ _ _ _ _ LO) as (i & Hi & [E|(arc & PA & OA & E)]).
      + eapply Rle_trans; [apply (HV i Hi)|]. apply share_up with (2 := Rlt_le _ _ VM) (3 := E). split; [apply Rabs_pos|apply share_le; auto].
      + apply sq_up; [lra|auto|]. specialize (HA arc i PA Hi). rewrite <- E in HA.
        assert (RP : 0 < ar_r arc). { destruct OK as (_ & OK). cbv zeta in OK. rewrite PA in OK. apply OK. }
        unfold Rdiv in HA. apply Rmult_le_reg_r in HA; auto. apply Rinv_0_lt_compat; auto.
    - auto.
    - destruct (lo_pos _ _ _ _ _ LO) as (_ & AP & DP).
      destruct (lo_amax _ _ _ _ _ LO) as (i & Hi & E). destruct (lo_dmax _ _ _ _ _ LO) as (j & Hj & F).
      assert (A1 : rm_a r i <= a) by (apply share_up with (2 := Rlt_le _ _ AP) (3 := E); split; [apply Rabs_pos|apply share_le; auto]).
      assert (D1 : - rm_d r j <= - d).
      { apply share_up with (s := Rabs (share P j)); [split; [apply Rabs_pos|apply share_le; auto]|lra|rewrite <- F; ring]. }
      apply sq_up; [lra|auto|]. destruct (HT i Hi) as [H1 _]. destruct (HT j Hj) as [_ H2].
      assert (G1 : v * v / (2 * a) <= pa_len P / 2).
      { apply Rmult_le_reg_r with (2 * a); [lra|]. replace (v * v / (2 * a) * (2 * a)) with (v * v) by (field; lra).
        eapply Rle_trans; [exact H1|]. replace (pa_len P / 2 * (2 * a)) with (pa_len P * a) by field. apply Rmult_le_compat_l; lra. }
      assert (G2 : v * v / (2 * - d) <= pa_len P / 2).
      { apply Rmult_le_reg_r with (2 * - d); [lra|]. replace (v * v / (2 * - d) * (2 * - d)) with (v * v) by (field; lra).
        eapply Rle_trans; [exact H2|]. replace (pa_len P / 2 * (2 * - d)) with (pa_len P * - d) by field. apply Rmult_le_compat_l; lra. }
      assert (Q : v * v * (/ (2 * a) + / (2 * - d)) <= vm * vm * (/ (2 * a) + / (2 * - d))) by (unfold Rdiv in *; lra).
      apply Rmult_le_reg_r in Q; auto. assert (0 < / (2 * a)) by (apply Rinv_0_lt_compat; lra). assert (0 < / (2 * - d)) by (apply Rinv_0_lt_compat; lra). lra. }
  eapply Rle_trans; [exact T|]. unfold Rdiv. apply Rmult_le_compat_l; [lra|]. apply Rinv_le_contravar; auto.
Qed.
Lemma brief_lemma r w fo m P v : sure r (sm_vFeed m) fo P v -> 2 * pa_len P / v < 4294967295 * w -> brief r w fo m P.
Proof. intros S H l <- LO. eapply Rle_lt_trans; [eapply leg_time; eauto|exact H]. Qed.

(** [v] is a speed the motion may have, [A] an acceleration every axis can give. *)
Lemma brief_bound r w fo m P v A : path_ok P -> 0 < v -> 0 < A -> 0 < w -> (forall i, (i < 3)%nat -> v <= rm_v r i) ->
  (forall a i, pa_arc P = Some a -> (i < 3)%nat -> v * v / ar_r a <= rm_a r i) -> (forall x, sm_vFeed m = XF x -> v <= x * fo) ->
  (forall i, (i < 3)%nat -> A <= rm_a r i /\ A <= - rm_d r i) ->
  2 * pa_len P / v < 4294967295 * w -> 4 * (pa_len P / A) < (4294967295 * w) * (4294967295 * w) -> brief r w fo m P.
Proof.
  intros OK V0 A0 W HV HA HF HM H1 H2. assert (LN : 0 < pa_len P) by apply OK.
  set (q := sqrt (pa_len P * A)). assert (LA : 0 < pa_len P * A) by (apply Rmult_lt_0_compat; auto).
  assert (Q0 : 0 < q) by (apply sqrt_lt_R0; auto). assert (QQ : q * q = pa_len P * A) by (apply sqrt_sqrt; lra).
  set (u := Rmin v q). assert (U0 : 0 < u) by (unfold u, Rmin; destruct (Rle_dec v q); auto).
  assert (UV : u <= v) by apply Rmin_l. assert (UQ : u <= q) by apply Rmin_r.
  assert (UU : u * u <= v * v) by (apply Rmult_le_compat; lra). assert (UL : u * u <= pa_len P * A) by (rewrite <- QQ; apply Rmult_le_compat; lra).
  apply brief_lemma with u; [split; [auto|split; [|split; [|split]]]|].
  - intros i Hi. specialize (HV i Hi). lra.
  - intros a i PA Hi. eapply Rle_trans; [|apply (HA a i PA Hi)]. assert (RP : 0 < ar_r a). { destruct OK as (_ & OK). cbv zeta in OK. rewrite PA in OK. apply OK. }
    unfold Rdiv. apply Rmult_le_compat_r; auto. apply Rlt_le, Rinv_0_lt_compat; auto.
  - intros x F. specialize (HF x F). lra.
  - intros i Hi. destruct (HM i Hi) as [M1 M2]. split; (eapply Rle_trans; [exact UL|]); apply Rmult_le_compat_l; lra.
  - unfold u, Rmin. destruct (Rle_dec v q); auto.
    assert (E : 2 * pa_len P / q * (2 * pa_len P / q) = 4 * (pa_len P / A)).
    { replace (2 * pa_len P / q * (2 * pa_len P / q)) with (4 * pa_len P * pa_len P / (q * q)) by (field; lra). rewrite QQ. field. lra. }
    assert (Z0 : 0 <= 2 * pa_len P / q) by (apply Rmult_le_pos; [lra|apply Rlt_le, Rinv_0_lt_compat; auto]).
    destruct (Rlt_le_dec (2 * pa_len P / q) (4294967295 * w)) as [|G]; auto. exfalso.
    assert (4294967295 * w * (4294967295 * w) <= 2 * pa_len P / q * (2 * pa_len P / q)) by (apply Rmult_le_compat; lra). lra.
Qed.
