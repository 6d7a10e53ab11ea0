(** Whole runs: facts about legs and their sequence. *)
Require Import List Arith NArith ZArith Bool Reals Lra Lia.
From Verif Require Import Base Num NumR MotionModel CtrlModel CtrlRSpec ProfileSpec GeomSpec GeomProofs PlanProofs RunSpec.
Import ListNotations.
Open Scope R_scope.

(** What is needed of a leg. *)
Record leg_moves (r : rmach) (l : leg) : Prop := {
  lm_T : 0 < lg_T l;
  lm_len : 0 < pa_len (lg_path l);
  lm_s0 : lg_s l 0 = 0;
  lm_sT : lg_s l (lg_T l) = pa_len (lg_path l);
  lm_mono : forall x y, 0 <= x <= y -> y <= lg_T l -> lg_s l x <= lg_s l y;
  lm_speed : forall i x y, (i < 3)%nat -> 0 <= x <= y -> y <= lg_T l ->
    Rabs (path_pos (lg_path l) i (lg_s l y) - path_pos (lg_path l) i (lg_s l x)) <= rm_v r i * (y - x);
  lm_brake : forall i x, (i < 3)%nat -> 0 <= x <= lg_T l ->
    Rabs (path_pos (lg_path l) i (pa_len (lg_path l)) - path_pos (lg_path l) i (lg_s l x)) <= - rm_d r i * ((lg_T l - x) * (lg_T l - x)) }.

Lemma plan_moves r l V a d vm v acc : path_ok (lg_path l) -> 0 < lg_T l -> limits_ok r (lg_path l) V a d -> 0 < vm <= V ->
  plan_spec 0 0 a d vm 0 0 (lg_T l) (pa_len (lg_path l)) (lg_s l) v acc -> leg_moves r l.
Proof.
  intros OK HT LO VM PS.
  destruct (lo_pos _ _ _ _ _ LO) as (VP & AP & DN).
  destruct (ps_start _ _ _ _ _ _ _ _ _ _ _ _ PS) as [S0 V0]. destruct (ps_end _ _ _ _ _ _ _ _ _ _ _ _ PS) as [S1 V1].
  assert (INC : forall x y b, 0 <= x <= y -> y <= lg_T l -> (forall t, x < t < y -> v t <= b) ->
            0 <= lg_s l y - lg_s l x <= b * (y - x)).
  { intros x y b H1 H2 HB. pose proof (lip (lg_s l) v b 0 x y) as K.
    assert (0 * (y - x) <= lg_s l y - lg_s l x <= b * (y - x)); [|lra]. apply K; try lra.
    - intros t Ht. apply (ps_speed _ _ _ _ _ _ _ _ _ _ _ _ PS). lra.
    - intros t Ht. apply (ps_scont _ _ _ _ _ _ _ _ _ _ _ _ PS). lra.
    - intros t Ht. split; [apply (ps_vbound _ _ _ _ _ _ _ _ _ _ _ _ PS); lra|apply HB; lra]. }
  assert (VB : forall x y t, 0 <= x <= y -> y <= lg_T l -> x < t < y -> v t <= vm).
  { intros. apply (ps_vbound _ _ _ _ _ _ _ _ _ _ _ _ PS). lra. }
  constructor; auto.
  - apply OK.
  - intros x y H1 H2. pose proof (INC x y vm H1 H2) as K. specialize (K ltac:(intros; eapply VB; eauto)). lra.
  - intros i x y Hi H1 H2. pose proof (INC x y vm H1 H2) as K. specialize (K ltac:(intros; eapply VB; eauto)).
    eapply Rle_trans; [apply pos_lip; auto|]. rewrite (Rabs_right (lg_s l y - lg_s l x)) by lra.
    pose proof (lo_v _ _ _ _ _ LO i Hi) as LV. pose proof (Rabs_pos (share (lg_path l) i)) as SP.
    apply Rle_trans with (Rabs (share (lg_path l) i) * (vm * (y - x))); [apply Rmult_le_compat_l; lra|].
    rewrite <- Rmult_assoc. apply Rmult_le_compat_r; [lra|].
    apply Rle_trans with (V * Rabs (share (lg_path l) i)); [|auto]. rewrite Rmult_comm. apply Rmult_le_compat_r; lra.
  - intros i x Hi Hx. rewrite <- S1 at 1.
    assert (K : 0 <= lg_s l (lg_T l) - lg_s l x <= (- d * (lg_T l - x)) * (lg_T l - x)).
    { apply INC; try lra. intros t Ht. pose proof (ps_accel _ _ _ _ _ _ _ _ _ _ _ _ PS t (lg_T l) ltac:(lra) ltac:(lra)) as AC.
      rewrite V1 in AC. assert (0 <= - d * (t - x)) by (apply Rmult_le_pos; lra). lra. }
    eapply Rle_trans; [apply pos_lip; auto|]. rewrite (Rabs_right (lg_s l (lg_T l) - lg_s l x)) by lra.
    pose proof (lo_d _ _ _ _ _ LO i Hi) as LV. pose proof (Rabs_pos (share (lg_path l) i)) as SP.
    set (q := (lg_T l - x)) in *.
    apply Rle_trans with (Rabs (share (lg_path l) i) * ((- d * q) * q)); [apply Rmult_le_compat_l; lra|].
    replace (Rabs (share (lg_path l) i) * (- d * q * q)) with ((- (d * Rabs (share (lg_path l) i))) * (q * q)) by ring.
    apply Rmult_le_compat_r; [apply Rmult_le_pos; unfold q; lra|lra].
Qed.

Lemma leg_ok_moves r f fo l : leg_ok r f fo l -> leg_moves r l.
Proof. intros (OK & HT & V & a & d & vm & v & acc & LO & VM & _ & PS & _). eapply plan_moves; eauto. Qed.

(** *** Where the machine is *)
Definition at_end (l : leg) : nat -> R := fun i => path_pos (lg_path l) i (pa_len (lg_path l)).
Definition head_T (legs : list leg) (t : R) : Prop := match legs with [] => True | l :: _ => t <= lg_T l end.
Definition now (x0 : nat -> R) (legs : list leg) (t : R) (i : nat) : R :=
  match legs with [] => x0 i | l :: _ => path_pos (lg_path l) i (lg_s l t) end.

Lemma locate_in x0 legs t : head_T legs t -> locate x0 legs t = (x0, legs, t).
Proof. destruct legs as [|l r]; cbn; auto. intro H. destruct (Rle_dec t (lg_T l)); [auto|lra]. Qed.

Lemma where_now x0 legs t i : head_T legs t -> where_at x0 legs t i = now x0 legs t i.
Proof. intro H. unfold where_at. rewrite locate_in by auto. destruct legs; reflexivity. Qed.

Lemma rmach_pos M r : machine_is M r -> forall i, (i < 3)%nat -> 0 < rm_v r i /\ rm_d r i < 0 /\ 0 < rm_k r i.
Proof. intros (_ & _ & H) i Hi. destruct (H i Hi) as (_ & _ & _ & _ & H1 & H2 & H3 & H4). auto. Qed.

Section Loc.
Variable r : rmach.
Hypothesis RP : forall i, (i < 3)%nat -> 0 < rm_v r i /\ rm_d r i < 0 /\ 0 < rm_k r i.

(** Going from time [t0] of the first leg to a later time: either still in it,
    or [tau] after [t0] a later leg began, and between [t0] and then every axis
    moved little. *)
Lemma locate_step legs : forall x0 t0 t x legs' t', 
  chained x0 (map lg_path legs) -> Forall (leg_moves r) legs -> 0 <= t0 -> head_T legs t0 -> t0 <= t ->
  locate x0 legs t = (x, legs', t') ->
  chained x (map lg_path legs') /\ Forall (leg_moves r) legs' /\ 0 <= t' /\ head_T legs' t' /\
  ((x = x0 /\ legs' = legs /\ t' = t) \/
   ((length legs' < length legs)%nat /\
    exists tau, 0 <= tau /\ t - t0 = tau + t' /\
    forall i, (i < 3)%nat -> Rabs (x i - now x0 legs t0 i) <= rm_v r i * tau /\
       Rabs (x i - now x0 legs t0 i) <= - rm_d r i * (tau * tau))).
Proof.
  induction legs as [|l rest IH]; intros x0 t0 t x legs' t' CH FA H0 HT HL E; cbn [locate] in E.
  - inversion E; subst. split; [auto|]. split; [auto|]. split; [lra|]. split; [auto|]. left; auto.
  - destruct (Rle_dec t (lg_T l)) as [LE|GT].
    { inversion E; subst. split; [auto|]. split; [auto|]. split; [lra|]. split; [auto|]. left; auto. }
    assert (GT' : lg_T l < t) by lra. clear GT. rename GT' into GT.
    cbn [map chained] in CH. destruct CH as [CH0 CH]. inversion FA as [|? ? LM FA']; subst. cbn [head_T] in HT.
    pose proof (lm_T _ _ LM) as TP. change (fun i => path_pos (lg_path l) i (pa_len (lg_path l))) with (at_end l) in *.
    assert (HT0 : head_T rest 0). { destruct rest as [|l2 r2]; cbn; auto. inversion FA' as [|? ? LM2 ?]; subst. apply Rlt_le, (lm_T _ _ LM2). }
    destruct (IH (at_end l) 0 (t - lg_T l) x legs' t' CH FA' ltac:(lra) HT0 ltac:(lra) E) as (C1 & F1 & T1 & H1 & D).
    split; auto. split; auto. split; auto. split; auto. right. split. { destruct D as [(_ & -> & _)|(LT & _)]; cbn [length]; lia. }
    assert (B : forall i, (i < 3)%nat -> Rabs (at_end l i - now x0 (l :: rest) t0 i) <= rm_v r i * (lg_T l - t0) /\
       Rabs (at_end l i - now x0 (l :: rest) t0 i) <= - rm_d r i * ((lg_T l - t0) * (lg_T l - t0))).
    { intros i Hi. cbn [now]. unfold at_end. split; [|apply (lm_brake _ _ LM); auto].
      rewrite <- (lm_sT _ _ LM) at 1. apply (lm_speed _ _ LM); auto; lra. }
    destruct D as [(-> & -> & ->)|(_ & tau & P1 & P2 & P3)].
    + exists (lg_T l - t0). split; [lra|]. split; [lra|]. exact B.
    + exists (lg_T l - t0 + tau). split; [lra|]. split; [lra|]. intros i Hi.
      destruct (B i Hi) as [B1 B2]. destruct (P3 i Hi) as [Q1 Q2]. destruct (RP i Hi) as (VP & DP & _).
      assert (EQ : now (at_end l) rest 0 i = at_end l i).
      { destruct rest as [|l2 r2]; cbn [now]; auto. cbn [map chained] in CH. destruct CH as [CH1 _].
        inversion FA' as [|? ? LM2 ?]; subst. rewrite (lm_s0 _ _ LM2). apply CH1; auto. }
      rewrite EQ in Q1, Q2.
      assert (TR : Rabs (x i - now x0 (l :: rest) t0 i) <= Rabs (x i - at_end l i) + Rabs (at_end l i - now x0 (l :: rest) t0 i)).
      { replace (x i - now x0 (l :: rest) t0 i) with ((x i - at_end l i) + (at_end l i - now x0 (l :: rest) t0 i)) by ring. apply Rabs_triang. }
      set (q := lg_T l - t0) in *. assert (0 <= q) by (unfold q; lra).
      split; [lra|]. assert (0 <= - rm_d r i * (q * tau)) by (apply Rmult_le_pos; [lra|apply Rmult_le_pos; lra]). lra.
Qed.

(** The same as distances between positions. *)
Lemma locate_near legs x0 t0 w x legs' t' : 0 < w ->
  chained x0 (map lg_path legs) -> Forall (leg_moves r) legs -> 0 <= t0 -> head_T legs t0 ->
  locate x0 legs (t0 + w) = (x, legs', t') ->
  forall i, (i < 3)%nat ->
  Rabs (now x legs' t' i - now x0 legs t0 i) <= rm_v r i * w /\
  ((forall s s', match legs' with [] => True | l :: _ => path_pos (lg_path l) i s = path_pos (lg_path l) i s' end) ->
   (legs' = legs /\ now x legs' t' i = now x0 legs t0 i) \/
   ((length legs' < length legs)%nat /\ Rabs (now x legs' t' i - now x0 legs t0 i) <= - rm_d r i * (w * w))).
Proof.
  intros Hw CH FA H0 HT E i Hi. destruct (RP i Hi) as (VP & DP & _).
  destruct (locate_step legs x0 t0 (t0 + w) x legs' t' CH FA H0 HT ltac:(lra) E) as (C1 & F1 & T1 & HT1 & D).
  destruct D as [(-> & -> & ->)|(LT & tau & P1 & P2 & P3)].
  - split.
    + destruct legs as [|l r']; cbn [now].
      * rewrite Rminus_diag_eq, Rabs_R0 by auto. apply Rmult_le_pos; lra.
      * inversion FA; subst. cbn [head_T] in HT1. replace (rm_v r i * w) with (rm_v r i * (t0 + w - t0)) by ring.
        apply (lm_speed _ _ H2); auto; lra.
    + intro C. left. split; auto. destruct legs; cbn [now]; auto.
  - destruct (P3 i Hi) as [Q1 Q2].
    destruct legs' as [|l' rest'].
    + cbn [now] in *. replace w with (tau + t') by lra. assert (0 <= rm_v r i * t') by (apply Rmult_le_pos; lra).
      split; [lra|]. intros _. right. split; auto.
      assert (0 <= - rm_d r i * (tau * t')) by (apply Rmult_le_pos; [lra|apply Rmult_le_pos; lra]).
      assert (0 <= - rm_d r i * (t' * t')) by (apply Rmult_le_pos; [lra|apply Rmult_le_pos; lra]). lra.
    + inversion F1 as [|? ? LM F1']; subst. cbn [map chained] in C1. destruct C1 as [C0 _]. cbn [head_T] in HT1.
      cbn [now] in *.
      assert (N0 : path_pos (lg_path l') i (lg_s l' 0) = x i) by (rewrite (lm_s0 _ _ LM); auto).
      pose proof (lm_speed _ _ LM i 0 t' Hi ltac:(lra) HT1) as SP. rewrite N0 in SP.
      set (X := path_pos (lg_path l') i (lg_s l' t')) in *.
      match goal with |- context [X - ?y] => set (Y := y) in * end.
      assert (TR : Rabs (X - Y) <= Rabs (X - x i) + Rabs (x i - Y)).
      { replace (X - Y) with ((X - x i) + (x i - Y)) by ring. apply Rabs_triang. }
      split. { replace w with (tau + t') by lra. lra. }
      intro C. right. split; auto.
      assert (EX : X = x i) by (unfold X; rewrite <- N0; apply C). rewrite EX.
      assert (W2 : tau * tau <= w * w) by (apply Rmult_le_compat; lra).
      assert (- rm_d r i * (tau * tau) <= - rm_d r i * (w * w)) by (apply Rmult_le_compat_l; lra). lra.
Qed.

(** Locating twice. *)
Lemma locate_twice legs : forall x0 t x legs' t' d, 0 <= d -> locate x0 legs t = (x, legs', t') ->
  locate x0 legs (t + d) = locate x legs' (t' + d).
Proof.
  induction legs as [|l rest IH]; intros x0 t x legs' t' d Hd E; cbn [locate] in E.
  - inversion E; subst. reflexivity.
  - destruct (Rle_dec t (lg_T l)).
    + inversion E; subst. reflexivity.
    + cbn [locate]. destruct (Rle_dec (t + d) (lg_T l)); [lra|].
      replace (t + d - lg_T l) with (t - lg_T l + d) by ring. apply IH; auto.
Qed.

Lemma locate_total legs : forall x0 t, Forall (leg_moves r) legs ->
  (total legs < t -> locate x0 legs t = (end_of x0 (map lg_path legs), [], t - total legs)) /\
  (t <= total legs -> legs <> [] -> snd (fst (locate x0 legs t)) <> []).
Proof.
  induction legs as [|l rest IH]; intros x0 t FA; cbn [locate map end_of]; unfold total in *; cbn [map rsum fold_right] in *.
  - split; [intros; repeat f_equal; ring|congruence].
  - inversion FA as [|? ? LM FA']; subst. pose proof (lm_T _ _ LM).
    assert (0 <= rsum (map lg_T rest)).
    { clear - FA'. unfold rsum. induction FA' as [|l r' LM FA IH]; cbn [map fold_right]; [lra|]. pose proof (lm_T _ _ LM). lra. }
    fold (rsum (map lg_T rest)) in *. destruct (IH (at_end l) (t - lg_T l) FA') as [I1 I2]. split.
    + intro H1. destruct (Rle_dec t (lg_T l)); [lra|].
      change (fun i => path_pos (lg_path l) i (pa_len (lg_path l))) with (at_end l). rewrite I1 by lra. f_equal. ring.
    + intros H1 _. destruct (Rle_dec t (lg_T l)); [cbn; congruence|]. destruct rest as [|l2 r2]; [cbn in H1; lra|].
      apply I2; [lra|congruence].
Qed.
End Loc.
