(** How often an axis can be commanded to step when its target moves slowly and
    turns round slowly. *)
Require Import List Arith NArith ZArith Bool Reals Lra Lia ZifyBool ZifyNat.
From Verif Require Import Base EventModel StepModel StepSpec Num MotionModel CtrlModel CtrlSpec.
Import ListNotations.
Open Scope R_scope.

Lemma first_such (p : nat -> bool) m : forall a, (forall k, (a <= k < a + m)%nat -> p k = false) \/
  exists k, (a <= k < a + m)%nat /\ p k = true /\ forall j, (a <= j < k)%nat -> p j = false.
Proof.
  induction m as [|m IH]; intro a; [left; intros; lia|].
  destruct (p a) eqn:E.
  - right. exists a. split; [lia|]. split; auto. intros; lia.
  - destruct (IH (S a)) as [H|(k & H1 & H2 & H3)].
    + left. intros k Hk. destruct (Nat.eq_dec k a) as [->|]; auto. apply H. lia.
    + right. exists k. split; [lia|]. split; auto. intros j Hj. destruct (Nat.eq_dec j a) as [->|]; auto. apply H3. lia.
Qed.
Lemma last_such (p : nat -> bool) m : forall a, (forall k, (a <= k < a + m)%nat -> p k = false) \/
  exists k, (a <= k < a + m)%nat /\ p k = true /\ forall j, (k < j < a + m)%nat -> p j = false.
Proof.
  induction m as [|m IH]; intro a; [left; intros; lia|].
  destruct (p (a + m)%nat) eqn:E.
  - right. exists (a + m)%nat. split; [lia|]. split; auto. intros; lia.
  - destruct (IH a) as [H|(k & H1 & H2 & H3)].
    + left. intros k Hk. destruct (Nat.eq_dec k (a + m)) as [->|]; auto. apply H. lia.
    + right. exists k. split; [lia|]. split; auto. intros j Hj. destruct (Nat.eq_dec j (a + m)) as [->|]; auto. apply H3. lia.
Qed.

Definition opp (d : dir) : dir := match d with Fwd => Bwd | Bwd => Fwd end.
Definition sgn (d : dir) : Z := zdir (Some d).
Definition goes (d : dir) (c : option dir) : bool := match c, d with Some Fwd, Fwd | Some Bwd, Bwd => true | _, _ => false end.
Lemma goes_eq d c : goes d c = true <-> c = Some d.
Proof. destruct c as [[]|], d; cbn; split; congruence. Qed.

Section Count.
Variables (X : nat -> R) (P : nat -> Z) (c : nat -> option dir) (n : nat) (rate delta G : R).
Hypothesis HP : forall k, (k < n)%nat -> P (S k) = (P k + zdir (c k))%Z.
Hypothesis HC : forall k d, (k < n)%nat -> c k = Some d -> 55/100 <= IZR (sgn d) * (X (S k) - IZR (P k)).
Hypothesis HN : forall k, (k <= n)%nat -> Rabs (X k - IZR (P k)) <= 55/100 + delta.
Hypothesis HR : forall k, (k < n)%nat -> Rabs (X (S k) - X k) <= rate.
Hypothesis HS : forall d k1 k2 k3 k4, (k1 < k2 <= k3)%nat -> (k3 < k4 <= n)%nat ->
  IZR (sgn d) * (X k2 - X k1) <= - (1/10) -> 1/10 <= IZR (sgn d) * (X k4 - X k3) -> G <= INR (k4 - k1).
Hypothesis D0 : 0 <= delta.
Hypothesis R0 : 0 <= rate.
Hypothesis G0 : 0 < G.

Fixpoint cnt (a m : nat) : nat := match m with O => 0 | S m => (if is_cmd (c a) then 1 else 0) + cnt (S a) m end.

Lemma cnt_split m1 : forall a m2, cnt a (m1 + m2) = (cnt a m1 + cnt (a + m1) m2)%nat.
Proof.
  induction m1 as [|m1 IH]; intros a m2; cbn [cnt plus]; [rewrite Nat.add_0_r; reflexivity|].
  rewrite IH. replace (S a + m1)%nat with (a + S m1)%nat by lia. lia.
Qed.
Lemma cnt_none m : forall a, (forall k, (a <= k < a + m)%nat -> is_cmd (c k) = false) -> cnt a m = 0%nat.
Proof.
  induction m as [|m IH]; intros a H; cbn [cnt]; auto. rewrite H by lia. rewrite IH; auto. intros; apply H; lia.
Qed.
Lemma pos_cnt d m : forall a, (a + m <= n)%nat -> (forall k, (a <= k < a + m)%nat -> goes (opp d) (c k) = false) ->
  (sgn d * (P (a + m) - P a) = Z.of_nat (cnt a m))%Z.
Proof.
  induction m as [|m IH]; intros a HL H; cbn [cnt].
  - rewrite Nat.add_0_r. rewrite Z.sub_diag. destruct d; reflexivity.
  - specialize (IH (S a) ltac:(lia) ltac:(intros; apply H; lia)). replace (a + S m)%nat with (S a + m)%nat by lia.
    rewrite HP in IH by lia. specialize (H a ltac:(lia)). destruct (c a) as [[]|], d; cbn [goes opp is_cmd sgn zdir] in *; try discriminate; lia.
Qed.

Lemma rate_n m : forall a, (a + m <= n)%nat -> Rabs (X (a + m)%nat - X a) <= rate * INR m.
Proof.
  induction m as [|m IH]; intros a HL.
  - rewrite Nat.add_0_r, Rminus_diag_eq, Rabs_R0 by auto. cbn. lra.
  - replace (X (a + S m)%nat - X a) with ((X (S (a + m)) - X (a + m)%nat) + (X (a + m)%nat - X a)) by (replace (a + S m)%nat with (S (a + m)) by lia; ring).
    eapply Rle_trans; [apply Rabs_triang|]. specialize (IH a ltac:(lia)). specialize (HR (a + m)%nat ltac:(lia)). rewrite S_INR. lra.
Qed.
Lemma sgn_abs d x y : Rabs x <= y -> IZR (sgn d) * x <= y /\ - y <= IZR (sgn d) * x.
Proof. intro H. pose proof (Rle_abs x). pose proof (Rle_abs (- x)). rewrite Rabs_Ropp in *. destruct d; cbn [sgn zdir]; lra. Qed.

(** A run of commands in one direction. *)
Lemma run_count d a m : (a + m <= n)%nat -> (forall k, (a <= k < a + m)%nat -> goes (opp d) (c k) = false) ->
  INR (cnt a m) <= 1 + delta + rate * INR m.
Proof.
  intros HL H. assert (0 <= rate * INR m) by (apply Rmult_le_pos; [auto|apply pos_INR]).
  destruct (first_such (fun k => is_cmd (c k)) m a) as [NO|(f & F1 & F2 & F3)]. { rewrite (cnt_none m a NO). cbn [INR]. lra. }
  destruct (last_such (fun k => is_cmd (c k)) m a) as [NO|(e & E1 & E2 & E3)]. { rewrite (cnt_none m a NO). cbn [INR]. lra. }
  assert (FE : (f <= e)%nat). { destruct (le_lt_dec f e); auto. rewrite E3 in F2 by lia. discriminate. }
  assert (CE : c e = Some d). { pose proof (H e E1) as K. destruct (c e) as [[]|], d; cbn in *; congruence. }
  assert (EC : cnt a m = (1 + cnt f (e - f))%nat).
  { replace m with ((f - a) + ((e - f) + (1 + (a + m - S e))))%nat by lia. rewrite !cnt_split. rewrite (cnt_none (f - a)) by (intros; apply F3; lia).
    replace (a + (f - a))%nat with f by lia. replace (f + (e - f))%nat with e by lia. cbn [cnt]. rewrite E2.
    rewrite (cnt_none (a + m - S e)); [lia|]. intros; apply E3; lia. }
  pose proof (pos_cnt d (e - f) f ltac:(lia) ltac:(intros; apply H; lia)) as PC. replace (f + (e - f))%nat with e in PC by lia.
  apply (f_equal IZR) in PC. rewrite mult_IZR, minus_IZR, <- INR_IZR_INZ in PC.
  pose proof (HC e d ltac:(lia) CE) as HE. destruct (sgn_abs d _ _ (HN f ltac:(lia))) as [HF _].
  pose proof (rate_n (S (e - f)) f ltac:(lia)) as RN. replace (f + S (e - f))%nat with (S e) in RN by lia. apply (sgn_abs d) in RN.
  assert (LE : INR (S (e - f)) <= INR m) by (apply le_INR; lia).
  assert (rate * INR (S (e - f)) <= rate * INR m) by (apply Rmult_le_compat_l; auto).
  rewrite EC, plus_INR. cbn [INR]. lra.
Qed.

(** Between opposite commands the target turns back. *)
Lemma swing d e f : (e < f < n)%nat -> c e = Some d -> c f = Some (opp d) -> (forall k, (e < k < f)%nat -> is_cmd (c k) = false) ->
  IZR (sgn d) * (X (S f) - X (S e)) <= - (1/10).
Proof.
  intros HL CE CF NO. pose proof (HC e d ltac:(lia) CE) as H1. pose proof (HC f (opp d) ltac:(lia) CF) as H2.
  pose proof (HP e ltac:(lia)) as PE. rewrite CE in PE.
  pose proof (pos_cnt d (f - S e) (S e) ltac:(lia) ltac:(intros k Hk; specialize (NO k ltac:(lia)); destruct (c k) as [[]|]; [discriminate..|reflexivity])) as PC.
  rewrite cnt_none in PC by (intros; apply NO; lia). replace (S e + (f - S e))%nat with f in PC by lia.
  assert (PF : P f = (P e + zdir (Some d))%Z) by (destruct d; cbn [sgn zdir] in *; lia). rewrite PF, plus_IZR in H2.
  destruct d; cbn [sgn zdir opp] in *; lra.
Qed.
Lemma opp_opp d : opp (opp d) = d. Proof. destruct d; reflexivity. Qed.
Lemma sgn_opp d : IZR (sgn (opp d)) = - IZR (sgn d). Proof. destruct d; cbn; lra. Qed.

Lemma count_lemma : forall m a, (a + m <= n)%nat -> INR (cnt a m) <= rate * INR m + (1 + delta) * (2 + 2 * (INR m / G)).
Proof.
  intro m. induction m as [m IH] using lt_wf_ind. intros a HL.
  assert (GP : forall k, 0 <= INR k / G) by (intro k; apply Rmult_le_pos; [apply pos_INR|apply Rlt_le, Rinv_0_lt_compat; auto]).
  assert (RP : forall k, 0 <= rate * INR k) by (intro k; apply Rmult_le_pos; [auto|apply pos_INR]).
  assert (KP : forall k, 0 <= (1 + delta) * (INR k / G)) by (intro k; apply Rmult_le_pos; [lra|auto]).
  pose proof (RP m). pose proof (KP m).
  destruct (first_such (fun k => is_cmd (c k)) m a) as [NO|(f1 & A1 & A2 & A3)]. { rewrite (cnt_none m a NO). cbn [INR]. lra. }
  destruct (c f1) as [d|] eqn:C1; [|discriminate].
  destruct (first_such (fun k => goes (opp d) (c k)) m a) as [ND|(f2 & B1 & B2 & B3)]. { pose proof (run_count d a m HL ND). lra. }
  apply goes_eq in B2.
  assert (F12 : (f1 < f2)%nat). { destruct (le_lt_dec f2 f1) as [L|]; auto. destruct (Nat.eq_dec f1 f2) as [E|]. { subst. rewrite C1 in B2. destruct d; discriminate. } specialize (A3 f2 ltac:(lia)). cbv beta in A3. rewrite B2 in A3. discriminate. }
  assert (S1 : cnt a m = (cnt a (f2 - a) + cnt f2 (a + m - f2))%nat).
  { replace m with ((f2 - a) + (a + m - f2))%nat at 1 by lia. rewrite cnt_split. replace (a + (f2 - a))%nat with f2 by lia. reflexivity. }
  pose proof (run_count d a (f2 - a) ltac:(lia) ltac:(intros; apply B3; lia)) as N1.
  destruct (first_such (fun k => goes d (c k)) (a + m - f2) f2) as [ND|(f3 & D1 & D2 & D3)].
  { assert (N2 : INR (cnt f2 (a + m - f2)) <= 1 + delta + rate * INR (a + m - f2)). { apply run_count with (opp d); [lia|]. rewrite opp_opp. auto. }
    rewrite S1, plus_INR. replace (INR m) with (INR (f2 - a) + INR (a + m - f2)) by (rewrite <- plus_INR; f_equal; lia).
    rewrite Rmult_plus_distr_l. pose proof (GP m). replace (INR (f2 - a) + INR (a + m - f2)) with (INR m) by (rewrite <- plus_INR; f_equal; lia). lra. }
  apply goes_eq in D2.
  assert (F23 : (f2 < f3)%nat). { destruct (Nat.eq_dec f2 f3) as [E|]; [|lia]. subst. rewrite B2 in D2. destruct d; discriminate. }
  assert (S2 : cnt f2 (a + m - f2) = (cnt f2 (f3 - f2) + cnt f3 (a + m - f3))%nat).
  { replace (a + m - f2)%nat with ((f3 - f2) + (a + m - f3))%nat by lia. rewrite cnt_split. replace (f2 + (f3 - f2))%nat with f3 by lia. reflexivity. }
  assert (N2 : INR (cnt f2 (f3 - f2)) <= 1 + delta + rate * INR (f3 - f2)). { apply run_count with (opp d); [lia|]. rewrite opp_opp. intros; apply D3; lia. }
  pose proof (IH (a + m - f3)%nat ltac:(lia) f3 ltac:(lia)) as N3.
  (* the last commands before f2 and before f3 *)
  destruct (last_such (fun k => is_cmd (c k)) (f2 - a) a) as [NO|(e1 & E1 & E2 & E3)]. { specialize (NO f1 ltac:(lia)). cbv beta in NO. rewrite C1 in NO. discriminate. }
  destruct (last_such (fun k => is_cmd (c k)) (f3 - f2) f2) as [NO|(e2 & H1 & H2 & H3)]. { specialize (NO f2 ltac:(lia)). cbv beta in NO. rewrite B2 in NO. discriminate. }
  assert (CE1 : c e1 = Some d). { pose proof (B3 e1 ltac:(lia)) as K. cbv beta in K. destruct (c e1) as [[]|], d; cbn in *; congruence. }
  assert (CE2 : c e2 = Some (opp d)). { pose proof (D3 e2 ltac:(lia)) as K. cbv beta in K. destruct (c e2) as [[]|], d; cbn in *; congruence. }
  pose proof (swing d e1 f2 ltac:(lia) CE1 B2 ltac:(intros; apply E3; lia)) as W1.
  pose proof (swing (opp d) e2 f3 ltac:(lia) CE2 ltac:(rewrite opp_opp; exact D2) ltac:(intros; apply H3; lia)) as W2. rewrite sgn_opp in W2.
  pose proof (HS d (S e1) (S f2) (S e2) (S f3) ltac:(lia) ltac:(lia) W1 ltac:(lra)) as GG.
  assert (GL : G <= INR (f3 - a)) by (eapply Rle_trans; [exact GG|]; apply le_INR; lia).
  assert (U : 1 <= INR (f3 - a) / G). { apply Rmult_le_reg_r with G; auto. replace (INR (f3 - a) / G * G) with (INR (f3 - a)) by (field; lra). lra. }
  assert (EM : INR m = INR (f3 - a) + INR (a + m - f3)) by (rewrite <- plus_INR; f_equal; lia).
  assert (EF : INR (f3 - a) = INR (f2 - a) + INR (f3 - f2)) by (rewrite <- plus_INR; f_equal; lia).
  assert (ED : INR m / G = INR (f3 - a) / G + INR (a + m - f3) / G) by (rewrite EM; field; lra).
  rewrite S1, S2, !plus_INR, ED, EM. set (q := INR (f3 - a) / G) in *. clearbody q. rewrite EF.
  assert (0 <= (1 + delta) * (q - 1)) by (apply Rmult_le_pos; lra). lra.
Qed.
End Count.
