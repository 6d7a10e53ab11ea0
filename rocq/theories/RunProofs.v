(** Whole runs: from the queued motions to the pulses on the pins. *)
Require Import List Arith NArith ZArith Bool Reals Lra Lia ZifyBool ZifyNat ZifyN.
From Verif Require Import Base BaseProofs EventModel StepModel StepSpec StepSignalsProofs Num NumR MotionModel CtrlModel CtrlSpec CtrlProofs CtrlQueueProofs.
From Verif Require Import CtrlRSpec CtrlTrackProofs CtrlTimeProofs ProfileSpec GeomSpec GeomProofs PlanProofs RunSpec RunLegProofs RunTickProofs RunPlanProofs RunStartProofs.
Import ListNotations.
Open Scope R_scope.

Definition link (P : path) : nat -> R := fun i => path_pos P i (pa_len P).

Lemma locate_more legs more : forall x0 t x legs' t', locate x0 legs t = (x, legs', t') -> legs' <> [] ->
  locate x0 (legs ++ more) t = (x, legs' ++ more, t').
Proof.
  induction legs as [|l rest IH]; intros x0 t x legs' t' E NE; cbn [locate app] in *.
  - inversion E; subst; congruence.
  - destruct (Rle_dec t (lg_T l)); [inversion E; subst; reflexivity|]. apply IH; auto.
Qed.
Lemma locate_end legs : forall x0 t x legs' t', locate x0 legs t = (x, legs', t') ->
  end_of x (map lg_path legs') = end_of x0 (map lg_path legs).
Proof.
  induction legs as [|l rest IH]; intros x0 t x legs' t' E; cbn [locate] in E.
  - inversion E; subst. reflexivity.
  - destruct (Rle_dec t (lg_T l)); [inversion E; subst; reflexivity|]. cbn [map end_of]. eapply IH; eauto.
Qed.
Lemma chained_app Ps : forall x0 Qs, chained x0 (Ps ++ Qs) <-> chained x0 Ps /\ chained (end_of x0 Ps) Qs.
Proof.
  induction Ps as [|P Ps IH]; intros x0 Qs; cbn [app chained end_of]; [tauto|]. rewrite IH. tauto.
Qed.

Definition link_spaced (p : option dir) (l : list (option dir)) : Prop := spaced (p :: l).
Lemma spaced_app l1 : forall p l2, link_spaced p l1 -> link_spaced (last l1 p) l2 -> link_spaced p (l1 ++ l2).
Proof.
  unfold link_spaced. induction l1 as [|c l1 IH]; intros p l2 H1 H2; [exact H2|].
  cbn [app]. destruct H1 as [H1 H3]. split; [exact H1|].
  apply IH; [exact H3|]. replace (last (c :: l1) p) with (last l1 c) in H2; [exact H2|].
  clear. revert c p. induction l1 as [|a l IH]; intros c p; [reflexivity|]. change (last (c :: a :: l) p) with (last (a :: l) p).
  rewrite <- (IH a p). symmetry. apply IH.
Qed.
Lemma last_cons {X} (l : list X) : forall a b, last (a :: l) b = last l a.
Proof.
  induction l as [|c l IH]; intros a b; [reflexivity|]. change (last (a :: c :: l) b) with (last (c :: l) b). rewrite (IH c b). symmetry. apply IH.
Qed.
Lemma last_app {X} (l1 l2 : list X) d : last (l1 ++ l2) d = last l2 (last l1 d).
Proof.
  revert d. induction l1 as [|a l1 IH]; intro d; [reflexivity|]. cbn [app]. rewrite !last_cons. apply IH.
Qed.

Section Run.
Variables (M : machine xr) (r : rmach) (w fo : R) (N : nat).
Notation A := x_arith.
Hypothesis MI : machine_is M r.
Hypothesis FO : 0 < fo.
Hypothesis W : 0 < w.
Hypothesis RATE : forall i, (i < 3)%nat -> tick_rate r w i + INR N * creep r w i <= 1.
Variables (x0 : nat -> R) (ev0 : list event) (n0 : nat).

Definition inv (c : ctrl xr) (legs : list leg) (t : R) (prev : nat -> option dir) : Prop :=
  0 <= t /\ legs <> [] /\ (n0 + length legs <= N)%nat /\ Forall (leg_moves r) legs /\
  exists x legs' t', locate x0 legs t = (x, legs', t') /\
    match legs' with
    | [] => at_rest c w fo /\ (forall i, prev i = None) /\
            (forall i, (i < 3)%nat -> Rabs (rm_k r i * x i - pos_of c i) <= 55/100 + INR (n0 + length legs) * creep r w i) /\
            c_events c = ev0 ++ repeat motionCompleted (length legs - 1) ++ [motionStopped; motionCompleted; allMotionsCompleted]
    | _ => running r w fo N c x legs' t' (n0 + (length legs - length legs')) prev /\
           c_events c = ev0 ++ repeat motionCompleted (length legs - length legs')
    end.

Lemma running_sig c g x legs t n prev : running r w fo N c x legs t n prev -> running r w fo N (c_with_sig c g) x legs t n prev.
Proof. intros [[] H]. split; auto. constructor; auto. Qed.
Lemma rest_sig c g : at_rest c w fo -> at_rest (c_with_sig c g) w fo.
Proof. intros []. constructor; auto. Qed.
Lemma inv_sig c g legs t prev : inv c legs t prev -> inv (c_with_sig c g) legs t prev.
Proof.
  intros (H1 & H2 & H3 & H4 & x & legs' & t' & E & H). repeat (split; [assumption|]). exists x, legs', t'. split; auto.
  destruct legs'. - destruct H as (R1 & R2). split; [apply rest_sig; auto|exact R2].
  - destruct H as (R1 & R2). split; [apply running_sig; auto|exact R2].
Qed.
Lemma running_prev c x legs t n p q : (forall i, (i < 3)%nat -> p i = q i) -> running r w fo N c x legs t n p -> running r w fo N c x legs t n q.
Proof. intros E [[] H]. split; auto. constructor; auto. intros i d Hi. rewrite <- E by auto. auto. Qed.

Lemma inv_pos c legs t prev : inv c legs t prev -> length (c_pos c) = 3%nat.
Proof.
  intros (_ & _ & _ & _ & x & legs' & t' & _ & H). destruct legs'; destruct H as [H _]; [apply (ar_pos _ _ _ H)|apply (rn_pos _ _ _ _ _ _ _ _ _ _ H)].
Qed.
Lemma inv_within c legs t prev : inv c legs t prev -> within r (fun i => 55/100 + INR N * creep r w i) (where_at x0 legs t) c.
Proof.
  intros (H1 & H2 & H3 & H4 & x & legs' & t' & E & H) i Hi. unfold where_at. rewrite E. pose proof (creep_pos M r w MI W i Hi) as CP.
  destruct legs' as [|l ls].
  - destruct H as (_ & _ & H & _). specialize (H i Hi). eapply Rle_trans; [exact H|].
    apply Rplus_le_compat_l. apply Rmult_le_compat_r; auto. apply le_INR; auto.
  - destruct H as (H & _). pose proof (rn_close _ _ _ _ _ _ _ _ _ _ H i Hi) as C. cbn [now] in C. eapply Rle_trans; [exact C|].
    apply Rplus_le_compat_l. apply Rmult_le_compat_r; auto. apply le_INR; lia.
Qed.

Lemma tick_inv c legs t prev : inv c legs t prev ->
  exists c' cs, c_tick A M c = Ok c' /\ (length cs = 3%nat \/ cs = []) /\ c_sig c' = sg_cmds (sg_next (c_sig c)) 0 cs /\
    c_pos c' = add_cmds (c_pos c) cs /\
    (forall i, (i < 3)%nat -> calm r w N i -> prev i <> None -> nth i cs None = None) /\
    inv c' legs (t + w) (fun i => nth i cs None).
Proof.
  intros IV. pose proof (inv_pos _ _ _ _ IV) as HL. destruct IV as (H1 & H2 & H3 & H4 & x & legs' & t' & E & H).
  pose proof (locate_twice legs x0 t x legs' t' w ltac:(lra) E) as E2.
  assert (LEN : (length legs' <= length legs)%nat) by (eapply locate_len; eauto).
  destruct legs' as [|l ls].
  - destruct H as (R & P & CL & EV). pose proof (ar_state _ _ _ R) as ST.
    exists (c_with_sig c (sg_next (c_sig c))), []. split; [apply tick_stopped; auto|]. split; auto. split; [reflexivity|].
    split. { cbn [c_pos c_with_sig]. symmetry. apply add_cmds_nil; auto. }
    split. { intros i _ _ _. destruct i; reflexivity. }
    unfold inv. split; [lra|]. split; auto. split; auto. split; auto. exists x, [], (t' + w). split; [rewrite E2; reflexivity|].
    split; [apply rest_sig; auto|]. split; [intros i; destruct i; reflexivity|]. auto.
  - destruct H as (RN & EV). destruct (locate x (l :: ls) (t' + w)) as [[x2 legs2] t2] eqn:L2.
    assert (LEN2 : (length legs2 <= length (l :: ls))%nat) by (eapply locate_len; eauto).
    assert (TR := tick_running M r w fo N MI W RATE c x (l :: ls) t' (n0 + (length legs - length (l :: ls)))%nat prev x2 legs2 t2 RN ltac:(lia) L2).
    destruct TR as (c' & cs & T1 & T2 & T3 & T4 & T5 & T7).
    exists c', cs. split; auto. split; auto. split; auto. split; auto. split; auto.
    unfold inv. split; [lra|]. split; auto. split; auto. split; auto. exists x2, legs2, t2. split; [rewrite E2; reflexivity|].
    destruct legs2 as [|l2 ls2].
    + destruct T7 as (R1 & R2 & R3 & R4). split; auto. split. { intro i. rewrite R2. destruct i; reflexivity. }
      split. { intros i Hi. replace (n0 + length legs)%nat with (n0 + (length legs - length (l :: ls)) + length (l :: ls))%nat by lia. apply R3; auto. }
      rewrite R4, EV, <- app_assoc. f_equal. rewrite app_assoc, <- repeat_app. f_equal. f_equal. cbn [length] in *. lia.
    + destruct T7 as (R1 & R2).
      replace (length legs - length (l2 :: ls2))%nat with (length legs - length (l :: ls) + (length (l :: ls) - length (l2 :: ls2)))%nat by lia.
      split. { rewrite Nat.add_assoc. auto. } rewrite R2, EV, <- app_assoc, <- repeat_app. reflexivity.
Qed.

Lemma is_cmd_none (a b : option dir) : (a <> None -> b = None) -> ~ (is_cmd a = true /\ is_cmd b = true).
Proof. intros H [H1 H2]. destruct a; [|discriminate]. rewrite H in H2 by discriminate. discriminate. Qed.

Notation eps := (fun i => 55/100 + INR N * creep r w i).
Lemma where_more c legs more t prev : inv c legs t prev -> (c_state c = ms_stopped -> more = []) ->
  within r eps (where_at x0 (legs ++ more) t) c.
Proof.
  intros IV H. pose proof (inv_within _ _ _ _ IV) as WI. destruct IV as (_ & _ & _ & _ & x & legs' & t' & E & Q). destruct legs' as [|l ls].
  - destruct Q as (R & _). rewrite (H (ar_state _ _ _ R)), app_nil_r. exact WI.
  - intros i Hi. specialize (WI i Hi). unfold where_at in *. rewrite E in WI. rewrite (locate_more legs more x0 t x (l :: ls) t' E) by discriminate. exact WI.
Qed.

Lemma inv_cmd c legs more t prev i d : inv c legs t prev -> (c_state c = ms_stopped -> more = []) -> (i < 3)%nat -> prev i = Some d ->
  snd (fst (locate x0 (legs ++ more) t)) <> [] /\ (calm r w N i ->
  55/100 <= IZR (zdir (Some d)) * (rm_k r i * where_at x0 (legs ++ more) t i - IZR (nth i (c_pos c) 0 - zdir (Some d))%Z)).
Proof.
  intros (_ & _ & _ & _ & x & legs' & t' & E & Q) H Hi PD. destruct legs' as [|l ls].
  - destruct Q as (_ & PN & _). rewrite PN in PD. discriminate.
  - unfold where_at. rewrite (locate_more legs more x0 t x (l :: ls) t' E) by discriminate. cbn [app fst snd]. split; [discriminate|]. intro CA. destruct Q as ((LV & _) & _).
    destruct (lv_prev _ _ _ _ _ _ _ _ _ _ LV i d Hi PD CA) as (p & P1 & P2 & _). cbn [now] in P2. rewrite P1. replace (p + zdir (Some d) - zdir (Some d))%Z with p by lia.
    destruct d; [apply dec_fwd in P2|apply dec_bwd in P2]; cbn [zdir]; lra.
Qed.
(** Tick by tick: the counters follow, and a command is given only when the target is more
    than half a step away. *)
Definition ticked (legs : list leg) (t : R) (p : list Z) (css : list (list (option dir))) : Prop :=
  forall k i, (k < length css)%nat -> (i < 3)%nat ->
    let x := rm_k r i * where_at x0 legs (t + INR (S k) * w) i in
    let q j := (nth i p 0 + net (firstn j (cmd_at i css)))%Z in
    Rabs (x - IZR (q (S k))) <= eps i /\
    (forall d, nth k (cmd_at i css) None = Some d -> snd (fst (locate x0 legs (t + INR (S k) * w))) <> [] /\ (calm r w N i -> 55/100 <= IZR (zdir (Some d)) * (x - IZR (q k)))).
Lemma ticked_nil legs t p : ticked legs t p [].
Proof. intros k i H. inversion H. Qed.
Lemma ticked_cons legs t p p' cs css : (forall i, (i < 3)%nat -> nth i p' 0%Z = (nth i p 0 + zdir (nth i cs None))%Z) ->
  (forall i, (i < 3)%nat -> Rabs (rm_k r i * where_at x0 legs (t + w) i - IZR (nth i p' 0%Z)) <= eps i /\
     (forall d, nth i cs None = Some d -> snd (fst (locate x0 legs (t + w))) <> [] /\ (calm r w N i -> 55/100 <= IZR (zdir (Some d)) * (rm_k r i * where_at x0 legs (t + w) i - IZR (nth i p' 0 - zdir (Some d))%Z)))) ->
  ticked legs (t + w) p' css -> ticked legs t p (cs :: css).
Proof.
  intros HP H1 H2 k i Hk Hi. cbv zeta. cbn [cmd_at map]. destruct k as [|k].
  - destruct (H1 i Hi) as [A1 A2]. cbn [firstn net fold_right nth]. replace (t + INR 1 * w) with (t + w) by (cbn; ring).
    rewrite !Z.add_0_r, <- HP by auto. split; auto. intros d Hd. specialize (A2 d Hd).
    rewrite HP, Hd in A2 by auto. replace (nth i p 0 + zdir (Some d) - zdir (Some d))%Z with (nth i p 0%Z) in A2 by lia. exact A2.
  - cbn [length] in Hk. specialize (H2 k i ltac:(lia) Hi). cbv zeta in H2. destruct H2 as [A1 A2]. cbn [nth].
    replace (t + INR (S (S k)) * w) with (t + w + INR (S k) * w) by (rewrite !S_INR; ring).
    change (map (fun cs => nth i cs None) css) with (cmd_at i css).
    assert (E : forall j, (nth i p 0 + net (firstn (S j) (nth i cs None :: cmd_at i css)) = nth i p' 0 + net (firstn j (cmd_at i css)))%Z).
    { intro j. cbn [firstn]. rewrite HP by auto. change (net (nth i cs None :: firstn j (cmd_at i css))) with (zdir (nth i cs None) + net (firstn j (cmd_at i css)))%Z. lia. }
    rewrite !E. split; auto.
Qed.
Lemma ticked_app legs t p p' css1 css2 : (forall i, (i < 3)%nat -> nth i p' 0%Z = (nth i p 0 + net (cmd_at i css1))%Z) ->
  ticked legs t p css1 -> ticked legs (t + INR (length css1) * w) p' css2 -> ticked legs t p (css1 ++ css2).
Proof.
  revert t p. induction css1 as [|cs css1 IH]; intros t p HP H1 H2.
  - cbn [app length INR] in *. replace (t + 0 * w) with t in H2 by ring. intros k i Hk Hi. specialize (H2 k i Hk Hi). cbv zeta in *. rewrite HP in H2 by auto.
    cbn [cmd_at map net fold_right] in H2. rewrite Z.add_0_r in H2. exact H2.
  - cbn [app]. set (q := map (fun i => (nth i p 0 + zdir (nth i cs None))%Z) [0; 1; 2]%nat).
    assert (HQ : forall i, (i < 3)%nat -> nth i q 0%Z = (nth i p 0 + zdir (nth i cs None))%Z) by (intros i Hi; destruct i as [|[|[|]]]; try lia; reflexivity).
    apply ticked_cons with q; auto.
    + intros i Hi. specialize (H1 0%nat i ltac:(cbn [length]; lia) Hi). cbv zeta in H1. cbn [cmd_at map firstn nth] in H1.
      replace (t + INR 1 * w) with (t + w) in H1 by (cbn; ring). destruct H1 as [A1 A2].
      assert (N1 : (nth i p 0 + net [nth i cs None])%Z = nth i q 0%Z) by (rewrite HQ by auto; cbn [net fold_right]; lia).
      change (net []) with 0%Z in A2. rewrite N1 in A1. rewrite Z.add_0_r in A2. split; auto. intros d Hd. specialize (A2 d Hd).
      rewrite HQ, Hd by auto. replace (nth i p 0 + zdir (Some d) - zdir (Some d))%Z with (nth i p 0%Z) by lia. exact A2.
    + apply IH.
      * intros i Hi. rewrite HP, HQ by auto. change (net (cmd_at i (cs :: css1))) with (zdir (nth i cs None) + net (cmd_at i css1))%Z. lia.
      * intros k i Hk Hi. specialize (H1 (S k) i ltac:(cbn [length]; lia) Hi). cbv zeta in *. cbn [cmd_at map nth] in H1.
        change (map (fun cs => nth i cs None) css1) with (cmd_at i css1) in H1.
        assert (E : forall j, (nth i p 0 + net (firstn (S j) (nth i cs None :: cmd_at i css1)) = nth i q 0 + net (firstn j (cmd_at i css1)))%Z).
        { intro j. cbn [firstn]. rewrite HQ by auto. change (net (nth i cs None :: firstn j (cmd_at i css1))) with (zdir (nth i cs None) + net (firstn j (cmd_at i css1)))%Z. lia. }
        rewrite !E in H1. replace (t + INR (S (S k)) * w) with (t + w + INR (S k) * w) in H1 by (rewrite !S_INR; ring). exact H1.
      * replace (t + w + INR (length css1) * w) with (t + INR (length (cs :: css1)) * w) by (cbn [length]; rewrite S_INR; ring). exact H2.
Qed.

Lemma calc_inv k : forall c legs t prev, inv c legs t prev ->
  (sg_ticks (c_sig c) + N.of_nat k < two32)%N ->
  c_calc A M k c = Ok None \/
  exists c' s css prev', c_calc A M k c = Ok (Some (c', s)) /\
    (forall cs, In cs css -> (length cs <= 3)%nat) /\ (length css <= k)%nat /\
    fst (fst (sg_run (c_sig c) css)) = c_sig c' /\ snd (sg_run (c_sig c) css) = [s] /\
    timeBefore s = (sg_ticks (c_sig c) + N.of_nat (length css))%N /\ sg_ticks (c_sig c') = 0%N /\
    sg_maxTicks (c_sig c') = sg_maxTicks (c_sig c) /\
    (forall a, (a < 3)%nat -> nth a (c_pos c') 0%Z = (nth a (c_pos c) 0 + net (cmd_at a css))%Z) /\
    (forall i, (i < 3)%nat -> calm r w N i -> link_spaced (prev i) (cmd_at i css)) /\
    (forall i, prev' i = last (cmd_at i css) (prev i)) /\
    inv c' legs (t + INR (length css) * w) prev' /\
    (forall more, (c_state c' = ms_stopped -> more = []) -> ticked (legs ++ more) t (c_pos c) css).
Proof.
  induction k; intros c legs t prev IV HT; [left; reflexivity|].
  pose proof (inv_pos _ _ _ _ IV) as HL.
  destruct (tick_inv c legs t prev IV) as (c1 & cs & T1 & T2 & T3 & T4 & T5 & T7).
  assert (PN : forall i, (i < 3)%nat -> nth i (c_pos c1) 0%Z = (nth i (c_pos c) 0 + zdir (nth i cs None))%Z) by (intros i Hi; rewrite T4, add_cmds_nth by auto; reflexivity).
  assert (TK : forall more, (c_state c1 = ms_stopped -> more = []) -> forall i, (i < 3)%nat ->
     Rabs (rm_k r i * where_at x0 (legs ++ more) (t + w) i - IZR (nth i (c_pos c1) 0%Z)) <= eps i /\
     (forall d, nth i cs None = Some d -> snd (fst (locate x0 (legs ++ more) (t + w))) <> [] /\ (calm r w N i -> 55/100 <= IZR (zdir (Some d)) * (rm_k r i * where_at x0 (legs ++ more) (t + w) i - IZR (nth i (c_pos c1) 0 - zdir (Some d))%Z)))).
  { intros more HM i Hi. split; [apply (where_more c1 legs more (t + w) _ T7 HM i Hi)|]. intros d Hd. exact (inv_cmd c1 legs more (t + w) _ i d T7 HM Hi Hd). }
  destruct (tick_ticks A M c c1 HL T1) as (K1 & K2 & K3). unfold add32, w32 in K1. rewrite N.mod_small in K1 by lia.
  assert (SP : forall i, (i < 3)%nat -> calm r w N i -> ~ (is_cmd (prev i) = true /\ is_cmd (nth i cs None) = true)).
  { intros i Hi CA. apply is_cmd_none. apply T5; auto. }
  cbn [c_calc]. unfold rbind. rewrite T1. destruct (sg_isModified (c_sig c1) || sg_isTimedOut (c_sig c1)) eqn:EM.
  - right. destruct (sg_output (c_sig c1)) as [g s] eqn:EO. exists (c_with_sig c1 g), s, [cs], (fun i => nth i cs None).
    assert (EO' := EO). unfold sg_output in EO'. injection EO' as EG ES.
    split; auto. split. { intros ? [<-|[]]. destruct T2 as [->| ->]; cbn; lia. }
    split; [cbn; lia|]. cbn [sg_run]. unfold sg_tick. rewrite <- T3, EM, EO. cbn [fst snd c_with_sig c_sig c_pos c_st].
    split; [reflexivity|]. split; [reflexivity|].
    split. { rewrite <- ES. cbn [timeBefore length]. lia. }
    split. { rewrite <- EG. reflexivity. } split. { rewrite <- EG. exact K2. }
    split. { intros a Ha. rewrite T4, add_cmds_nth by auto. cbn [cmd_at map net fold_right]. lia. }
    split. { intros i Hi CA. cbn [cmd_at map]. split; [apply SP; auto|exact I]. }
    split; [reflexivity|]. split. { apply inv_sig. cbn [length INR]. replace (t + 1 * w) with (t + w) by ring. exact T7. }
    intros more HM. apply ticked_cons with (c_pos c1); auto. apply ticked_nil.
  - destruct (IHk c1 legs (t + w) (fun i => nth i cs None) T7 ltac:(lia)) as [N0|(c' & s & css & prev' & Q1 & Q2 & Q3 & Q4 & Q5 & Q6 & Q7 & Q8 & Q9 & Q10 & Q11 & Q13 & Q14)]; [left; auto|].
    right. exists c', s, (cs :: css), prev'. split; auto. split. { intros ? [<-|Hin]; auto. destruct T2 as [->| ->]; cbn; lia. }
    split; [cbn [length]; lia|]. cbn [sg_run]. unfold sg_tick. rewrite <- T3, EM.
    destruct (sg_run (c_sig c1) css) as [[g pins] recs] eqn:ER. cbn [fst snd] in *.
    split; [auto|]. split; [auto|]. split; [cbn [length]; lia|]. split; auto. split; [congruence|].
    split. { intros a Ha. rewrite Q9, T4, add_cmds_nth by auto.
      change (net (cmd_at a (cs :: css))) with (zdir (nth a cs None) + net (cmd_at a css))%Z. lia. }
    split. { intros i Hi CA. cbn [cmd_at map]. split; [apply SP; auto|]. apply Q10; auto. }
    split. { intro i. rewrite Q11. cbn [cmd_at map]. rewrite last_cons. reflexivity. }
    split. { replace (t + INR (length (cs :: css)) * w) with (t + w + INR (length css) * w) by (cbn [length]; rewrite S_INR; ring). exact Q13. }
    intros more HM. apply ticked_cons with (c_pos c1); auto. apply TK. intro S0. apply HM.
    pose proof (calc_stopped A M k c1 _ S0 Q1) as CS. cbv beta iota in CS. destruct CS as (? & _ & _ & ->). exact S0.
Qed.

Lemma fed_tail o ops c c' recs : c_step A M c (rop_op o) = Ok (c', recs) -> fed M c [] (o :: ops) -> fed M c' [] ops.
Proof.
  intros H F p m P rest c2 recs2 E R. apply (F (o :: p) m P rest c2 (recs ++ recs2)); [rewrite E; reflexivity|].
  cbn [app map c_run] in *. unfold rbind. rewrite H, R. reflexivity.
Qed.

Lemma sum_app l1 l2 : sum_times (l1 ++ l2) = (sum_times l1 + sum_times l2)%N.
Proof. unfold sum_times. induction l1; cbn [app fold_right]; lia. Qed.

Lemma run_inv mt (HM : (mt < two32)%N) : forall ops c legs t prev, inv c legs t prev -> sg_ticks (c_sig c) = 0%N -> sg_maxTicks (c_sig c) = mt ->
  Forall (exec r) (appended ops) -> Forall (bri r w fo) (appended ops) -> fed M c [] ops -> chained (end_of x0 (map lg_path legs)) (map snd (appended ops)) ->
  (n0 + length legs + length (appended ops) <= N)%nat ->
  exists c' recs css prev' more, c_run A M c (map rop_op ops) = Ok (c', recs) /\
    (forall cs, In cs css -> (length cs <= 3)%nat) /\
    fst (fst (sg_run (c_sig c) css)) = c_sig c' /\ snd (sg_run (c_sig c) css) = recs /\
    sum_times recs = N.of_nat (length css) /\ (calcs ops <= sum_times recs)%N /\ sg_ticks (c_sig c') = 0%N /\ sg_maxTicks (c_sig c') = mt /\
    (forall a, (a < 3)%nat -> nth a (c_pos c') 0%Z = (nth a (c_pos c) 0 + net (cmd_at a css))%Z) /\
    (forall i, (i < 3)%nat -> calm r w N i -> link_spaced (prev i) (cmd_at i css)) /\
    (forall i, prev' i = last (cmd_at i css) (prev i)) /\
    map lg_path more = map snd (appended ops) /\ Forall2 (fun q l => leg_ok r (sm_vFeed (fst q)) fo l) (appended ops) more /\
    inv c' (legs ++ more) (t + INR (length css) * w) prev' /\ (c_state c = ms_stopped -> more = []) /\
    (forall p q, ops = p ++ q -> exists cp rp, c_run A M c (map rop_op p) = Ok (cp, rp) /\
       within r eps (where_at x0 (legs ++ more) (t + IZR (Z.of_N (sum_times rp)) * w)) cp) /\
    ticked (legs ++ more) t (c_pos c) css.
Proof.
  induction ops as [|o ops IH]; intros c legs t prev IV T0 MT EX BR FD CH HN.
  - exists c, [], [], prev, []. cbn [map c_run app sg_run fst snd length INR]. rewrite app_nil_r.
    split; [reflexivity|]. split; [intros ? []|]. split; [reflexivity|]. split; [reflexivity|]. split; [reflexivity|]. split; [cbn; lia|]. split; [auto|]. split; [auto|].
    split. { intros a Ha. cbn. lia. } split. { intros i Hi CA. exact I. } split; [reflexivity|]. split; [reflexivity|]. split; [constructor|].
    split. { replace (t + 0 * w) with t by ring. auto. } split; [auto|].
    split; [|apply ticked_nil]. intros p q E. symmetry in E. apply app_eq_nil in E. destruct E as [-> ->]. exists c, []. split; [reflexivity|].
      cbn [sum_times fold_right Z.of_N]. replace (t + 0 * w) with t by ring. apply inv_within with (prev := prev). auto.
  - destruct o as [|m P].
    + cbn [appended flat_map app] in *. fold (appended ops) in *.
      set (k := N.to_nat (N.max 1 mt)).
      assert (KM : (N.max 1 mt < two32)%N) by (unfold two32 in *; lia).
      pose proof (inv_pos _ _ _ _ IV) as HL.
      destruct (calc_inv k c legs t prev IV ltac:(lia)) as [N0|(c1 & s & css & prev1 & Q1 & Q2 & Q3 & Q4 & Q5 & Q6 & Q7 & Q8 & Q9 & Q10 & Q11 & Q13 & Q14)].
      { exfalso. destruct (calc_terminates A M k c HL ltac:(lia) ltac:(lia) ltac:(lia) ltac:(lia)) as [C|(c' & s & C & _)]; congruence. }
      assert (ST : c_step A M c OCalc = Ok (c1, [s])). { cbn [c_step]. rewrite MT. fold k. unfold rbind. rewrite Q1. reflexivity. }
      destruct (IH c1 legs (t + INR (length css) * w) prev1 Q13 Q7 ltac:(congruence) EX BR (fed_tail RCalc ops c c1 [s] ST FD) CH HN)
        as (c' & recs & css2 & prev' & more & I1 & I2 & I3 & I4 & I5 & IC & I6 & I7 & I8 & I9 & I10 & I11 & I12 & I13 & I14 & I15 & I17).
      exists c', (s :: recs), (css ++ css2), prev', more.
      assert (CNE : (length css <> 0)%nat) by (destruct css; [discriminate Q5|discriminate]). pose proof (sg_run_app (c_sig c) css css2) as RA. destruct (sg_run (c_sig c) css) as [[g1 p1] r1]. cbn [fst snd] in Q4, Q5. subst g1 r1.
      destruct (sg_run (c_sig c1) css2) as [[g2 p2] r2]. cbn [fst snd] in I3, I4. subst g2 r2. rewrite RA. cbn [fst snd app].
      assert (CA : forall i, cmd_at i (css ++ css2) = cmd_at i css ++ cmd_at i css2) by (intro; apply map_app).
      split. { cbn [map rop_op c_run]. unfold rbind. rewrite ST, I1. reflexivity. }
      split. { intros cs Hin. apply in_app_or in Hin. destruct Hin; auto. }
      split; auto. split; auto. split. { cbn [sum_times fold_right]. fold (sum_times recs). rewrite I5, Q6, T0, app_length. lia. }
      split. { cbn [calcs sum_times fold_right]. fold (sum_times recs). lia. }
      split; auto. split; auto. split. { intros a Ha. rewrite I8, Q9, CA, net_app by auto. lia. }
      split. { intros i Hi C. rewrite CA. apply spaced_app; auto. rewrite <- Q11. auto. }
      split. { intro i. rewrite I10, CA, last_app, Q11. reflexivity. }
      split; auto. split; auto. split. { rewrite app_length, plus_INR. replace (t + (INR (length css) + INR (length css2)) * w) with (t + INR (length css) * w + INR (length css2) * w) by ring. auto. }
      assert (STP : c_state c = ms_stopped -> more = []).
      { intro S0. apply I14. pose proof (calc_stopped A M k c _ S0 Q1) as CS. cbv beta iota in CS. destruct CS as (? & _ & _ & ->). exact S0. }
      split; auto. split; [|apply ticked_app with (c_pos c1); [intros a Ha; apply Q9; auto|apply Q14, I14|exact I17]]. intros p q E. destruct p as [|o p].
      * exists c, []. split; [reflexivity|]. cbn [sum_times fold_right Z.of_N]. replace (t + 0 * w) with t by ring. eapply where_more; eauto.
      * inversion E; subst o. destruct (I15 p q ltac:(auto)) as (cp & rp & J1 & J2). exists cp, (s :: rp).
        split. { cbn [map rop_op c_run]. unfold rbind. rewrite ST, J1. reflexivity. }
        cbn [sum_times fold_right]. fold (sum_times rp). rewrite Q6, T0, N.add_0_l, N2Z.inj_add, plus_IZR, nat_N_Z, <- INR_IZR_INZ.
        replace (t + (INR (length css) + IZR (Z.of_N (sum_times rp))) * w) with (t + INR (length css) * w + IZR (Z.of_N (sum_times rp)) * w) by ring. exact J2.
    + cbn [appended flat_map app] in *. fold (appended ops) in *. cbn [map snd length] in CH, HN.
      inversion EX as [|? ? EX1 EX2]; subst. inversion BR as [|? ? BR1 BR2]; subst.
      destruct (FD [] m P ops c [] eq_refl eq_refl) as [RUN LVL].
      assert (ST : c_step A M c (rop_op (RAppend m P)) = Ok (c_append A M c m, [])) by reflexivity.
      destruct IV as (V1 & V2 & V3 & V4 & x & legs' & t' & V5 & V6). destruct legs' as [|l0 ls].
      { exfalso. destruct V6 as (R & _). pose proof (ar_state _ _ _ R). congruence. }
      destruct V6 as [RN EV].
      assert (CH1 : chained (end_of x (map lg_path (l0 :: ls))) [P]).
      { rewrite (locate_end _ _ _ _ _ _ V5). destruct CH as [CH _]. split; [exact CH|exact I]. }
      destruct (append_running M r w fo MI FO N c x (l0 :: ls) t' _ prev (m, P) RN EX1 BR1 LVL CH1) as (l & L1 & L2 & L3 & L4 & L5 & L6 & L7). cbn [fst snd] in *.
      assert (IV1 : inv (c_append A M c m) (legs ++ [l]) t prev).
      { split; auto. split. { destruct legs; discriminate. } split. { rewrite app_length; cbn [length]; lia. }
        split. { apply Forall_app. split; auto. constructor; auto. eapply leg_ok_moves; eauto. }
        exists x, ((l0 :: ls) ++ [l]), t'. split. { apply locate_more; auto. discriminate. }
        cbn [app]. rewrite app_length. change (l0 :: ls ++ [l]) with ((l0 :: ls) ++ [l]). rewrite app_length. cbn [length plus].
        replace (length legs + 1 - S (length ls + 1))%nat with (length legs - S (length ls))%nat by lia. cbn [length] in *.
        split; [exact L3|]. rewrite L6. exact EV. }
      destruct (IH _ (legs ++ [l]) t prev IV1 ltac:(congruence) ltac:(congruence) EX2 BR2 (fed_tail (RAppend m P) ops c _ [] ST FD))
        as (c' & recs & css2 & prev' & more & I1 & I2 & I3 & I4 & I5 & IC & I6 & I7 & I8 & I9 & I10 & I11 & I12 & I13 & I14 & I15 & I17).
      { rewrite map_app. cbn [map]. rewrite L1. rewrite <- (app_nil_l (map snd (appended ops))) in CH.
        assert (EE : forall Ps Qs y, end_of y (Ps ++ Qs) = end_of (end_of y Ps) Qs) by (induction Ps; intros; cbn [app end_of]; auto).
        rewrite EE. cbn [end_of]. destruct CH as [_ CH]. exact CH. }
      { rewrite app_length. cbn [length]. lia. }
      exists c', recs, css2, prev', (l :: more). rewrite L5 in I3, I4.
      rewrite <- app_assoc in I13. cbn [app] in I13.
      split. { cbn [map rop_op c_run]. unfold rbind. cbn [c_step]. rewrite I1. reflexivity. }
      split; auto. split; auto. split; auto. split; auto. split; auto. split; auto. split; auto. split. { intros a Ha. rewrite I8, L4; auto. }
      split; auto. split; auto. split. { cbn [map]. rewrite L1, I11. reflexivity. } split; auto. split; auto.
      split. { intro S0. congruence. }
      split. 2:{ rewrite <- app_assoc in I17. cbn [app] in I17. intros k i Hk Hi. specialize (I17 k i Hk Hi). cbv zeta in *. rewrite L4 in I17. exact I17. }
      intros p q E. destruct p as [|o p].
      * exists c, []. split; [reflexivity|]. cbn [sum_times fold_right Z.of_N]. replace (t + 0 * w) with t by ring.
        apply (where_more c legs (l :: more) t prev); [|congruence].
        split; auto. split; auto. split; auto. split; auto. exists x, (l0 :: ls), t'. auto.
      * inversion E; subst o. destruct (I15 p q ltac:(auto)) as (cp & rp & J1 & J2). exists cp, rp. rewrite <- app_assoc in J2. cbn [app] in J2.
        split; auto. cbn [map rop_op c_run]. unfold rbind. cbn [c_step]. rewrite J1. reflexivity.
Qed.

Lemma run_app ops1 : forall ops2 (c c1 c2 : ctrl xr) r1 r2, c_run A M c ops1 = Ok (c1, r1) -> c_run A M c1 ops2 = Ok (c2, r2) ->
  c_run A M c (ops1 ++ ops2) = Ok (c2, r1 ++ r2).
Proof.
  induction ops1 as [|o ops1 IH]; intros ops2 c c1 c2 r1 r2 H1 H2; cbn [c_run app] in *.
  - inversion H1; subst. exact H2.
  - unfold rbind in *. destruct (c_step A M c o) as [[d s]|]; [|discriminate].
    destruct (c_run A M d ops1) as [[e t]|] eqn:E; [|discriminate]. inversion H1; subst. rewrite (IH _ _ _ _ _ _ E H2), app_assoc. reflexivity.
Qed.
End Run.

Section Job.
Variables (M : machine xr) (r : rmach) (w fo : R) (N : nat).
Notation A := x_arith.
Hypothesis MI : machine_is M r.
Hypothesis FO : 0 < fo.
Hypothesis W : 0 < w.
Hypothesis RATE : forall i, (i < 3)%nat -> tick_rate r w i + INR N * creep r w i <= 1.
Notation eps := (fun i => 55/100 + INR N * creep r w i).

Lemma job_core c0 x0 n qs ops : at_rest c0 w fo -> sg_ticks (c_sig c0) = 0%N -> (sg_maxTicks (c_sig c0) < two32)%N ->
  job_ok M r w fo c0 qs ops -> (n + length (qs ++ appended ops) <= N)%nat -> chained x0 (map snd (qs ++ appended ops)) ->
  within r (fun i => 55/100 + INR n * creep r w i) x0 c0 ->
  exists c recs legs css prev, c_run A M c0 (job qs ops) = Ok (c, recs) /\
    map lg_path legs = map snd (qs ++ appended ops) /\
    Forall2 (fun q l => leg_ok r (sm_vFeed (fst q)) fo l) (qs ++ appended ops) legs /\
    (forall cs, In cs css -> (length cs <= 3)%nat) /\
    fst (fst (sg_run (c_sig c0) css)) = c_sig c /\ snd (sg_run (c_sig c0) css) = recs /\
    sum_times recs = N.of_nat (length css) /\ (calcs ops <= sum_times recs)%N /\ sg_ticks (c_sig c) = 0%N /\ sg_maxTicks (c_sig c) = sg_maxTicks (c_sig c0) /\
    (forall a, (a < 3)%nat -> nth a (c_pos c) 0%Z = (nth a (c_pos c0) 0 + net (cmd_at a css))%Z) /\
    (forall i, (i < 3)%nat -> calm r w N i -> spaced (cmd_at i css)) /\
    (forall i, prev i = last (cmd_at i css) None) /\
    inv r w fo N x0 (c_events c0 ++ [motionStarted]) n c legs (elapsed w recs) prev /\
    (forall p q, ops = p ++ q -> exists cp rp, c_run A M c0 (job qs p) = Ok (cp, rp) /\
       within r eps (where_at x0 legs (elapsed w rp)) cp) /\
    ticked r w N x0 legs 0 (c_pos c0) css.
Proof.
  intros RE T0 MT [J1 J2 J4 J8 J7] J3 J5 J6.
  apply Forall_app in J4. destruct J4 as [E1 E2]. apply Forall_app in J8. destruct J8 as [B1 B2]. rewrite map_app in J5. apply chained_app in J5. destruct J5 as [C1 C2]. rewrite app_length in J3.
  destruct (appends_loaded M r w fo MI FO qs c0 [] (rest_loaded M r w fo c0 RE) E1 J2) as (c1 & R1 & LD & P1 & S1 & V1).
  cbn [app] in LD.
  assert (WI : forall i, (i < 3)%nat -> Rabs (rm_k r i * x0 i - pos_of c1 i) <= 55/100 + INR n * creep r w i).
  { intros i Hi. unfold pos_of. rewrite P1. apply J6; auto. }
  destruct (start_running M r w fo N c1 qs x0 n LD E1 B1 J1 C1 WI) as (P2 & S2 & V2 & I2 & legs & L1 & L2 & RN).
  set (c2 := c_start A M c1) in *.
  assert (R2 : c_run A M c0 (job qs []) = Ok (c2, [])).
  { unfold job. cbn [map]. apply (run_app M _ [OStart] c0 c1 c2 [] []); auto. }
  assert (JA : forall p, job qs p = job qs [] ++ map rop_op p).
  { intro p. unfold job. rewrite <- app_assoc. reflexivity. }
  assert (F2 : fed M c2 [] ops).
  { intros p m P rest c' recs E H. apply (J7 p m P rest c' recs E). rewrite <- JA. rewrite (JA p). apply (run_app M _ _ c0 c2 c' [] recs); auto. }
  assert (LL : length legs = length qs) by (apply (f_equal (@length path)) in L1; rewrite !map_length in L1; auto).
  assert (IV : inv r w fo N x0 (c_events c0 ++ [motionStarted]) n c2 legs 0 (fun _ => None)).
  { split; [lra|]. split. { apply (rn_some _ _ _ _ _ _ _ _ _ _ RN). } split; [lia|]. split. { apply (rn_moves _ _ _ _ _ _ _ _ _ _ RN). }
    exists x0, legs, 0. split. { apply locate_in. apply (rn_head _ _ _ _ _ _ _ _ _ _ RN). }
    destruct legs as [|l ls]; [destruct (rn_some _ _ _ _ _ _ _ _ _ _ RN eq_refl)|]. rewrite Nat.sub_diag. cbn [repeat]. split; [rewrite Nat.add_0_r; exact RN|].
    rewrite app_nil_r, V2, V1. reflexivity. }
  destruct (run_inv M r w fo N MI FO W RATE x0 (c_events c0 ++ [motionStarted]) n (sg_maxTicks (c_sig c0)) MT ops c2 legs 0 (fun _ => None) IV
     ltac:(congruence) ltac:(congruence) E2 B2 F2) as (c & recs & css & prev & more & I1 & I3 & I4 & I5 & I6 & IC & I7 & I8 & I9 & I10 & I11 & I12 & I13 & I14 & I15 & I16 & I17).
  { rewrite L1. exact C2. } { lia. }
  exists c, recs, (legs ++ more), css, prev.
  rewrite S2, S1 in I4, I5.
  split. { rewrite JA. apply (run_app M _ _ c0 c2 c [] recs); auto. }
  split. { rewrite !map_app, L1, I12. reflexivity. } split. { apply Forall2_app; auto. }
  split; auto. split; auto. split; auto. split; auto. split; auto. split; auto. split; auto.
  split. { intros a Ha. rewrite I9, P2, P1; auto. }
  split. { intros i Hi CA. specialize (I10 i Hi CA). unfold link_spaced in I10. destruct (cmd_at i css); [exact I|]. apply I10. }
  split; auto.
  split. { unfold elapsed. rewrite I6, nat_N_Z, <- INR_IZR_INZ. rewrite Rplus_0_l in I14. exact I14. }
  split; [|rewrite P2, P1 in I17; exact I17].
  intros p q E. destruct (I16 p q E) as (cp & rp & K1 & K2). exists cp, rp. rewrite Rplus_0_l in K2. split; auto.
  rewrite (JA p). apply (run_app M _ _ c0 c2 cp [] rp); auto.
Qed.

Lemma finished_locate legs : forall x0 t x legs' t', locate x0 legs t = (x, legs', t') -> (length legs - length legs')%nat = finished legs t.
Proof.
  induction legs as [|l rest IH]; intros x0 t x legs' t' E; cbn [locate finished] in *.
  - inversion E; subst. reflexivity.
  - destruct (Rle_dec t (lg_T l)); [inversion E; subst; lia|]. pose proof (locate_len _ _ _ _ _ _ E). apply IH in E. cbn [length]. lia.
Qed.

Lemma job_ends (c0 : ctrl xr) x0 n legs c t prev : inv r w fo N x0 (c_events c0 ++ [motionStarted]) n c legs t prev ->
  (t <= total legs -> c_state c = ms_running /\ c_events c = c_events c0 ++ motionStarted :: repeat motionCompleted (finished legs t)) /\
  (total legs < t -> at_rest c w fo /\ (forall i, prev i = None) /\
     c_events c = c_events c0 ++ motionStarted :: repeat motionCompleted (length legs - 1) ++ [motionStopped; motionCompleted; allMotionsCompleted] /\
     within r (fun i => 55/100 + INR (n + length legs) * creep r w i) (end_of x0 (map lg_path legs)) c).
Proof.
  intro IV. destruct IV as (V1 & V2 & V3 & V4 & x & legs' & t' & V5 & V6).
  destruct (locate_total r legs x0 t V4) as [LT1 LT2]. split; intro H.
  - specialize (LT2 H V2). rewrite V5 in LT2. cbn [fst snd] in LT2. destruct legs' as [|l ls]; [congruence|]. destruct V6 as [RN EV].
    split; [apply (rn_state _ _ _ _ _ _ _ _ _ _ RN)|]. rewrite EV, <- app_assoc. cbn [app]. rewrite (finished_locate _ _ _ _ _ _ V5). reflexivity.
  - specialize (LT1 H). rewrite V5 in LT1. injection LT1 as -> -> ->. destruct V6 as (Q1 & Q2 & Q3 & Q4). split; auto. split; auto.
    split. { rewrite Q4, <- app_assoc. reflexivity. }
    exact Q3.
Qed.

Lemma job_lemma c0 x0 n qs ops : at_rest c0 w fo -> sg_ticks (c_sig c0) = 0%N -> (sg_maxTicks (c_sig c0) < two32)%N ->
  job_ok M r w fo c0 qs ops -> (n + length (qs ++ appended ops) <= N)%nat -> chained x0 (map snd (qs ++ appended ops)) ->
  within r (fun i => 55/100 + INR n * creep r w i) x0 c0 ->
  exists c recs legs, c_run A M c0 (job qs ops) = Ok (c, recs) /\
    map lg_path legs = map snd (qs ++ appended ops) /\
    Forall2 (fun q l => leg_ok r (sm_vFeed (fst q)) fo l) (qs ++ appended ops) legs /\
    IZR (Z.of_N (calcs ops)) * w <= elapsed w recs /\
    (elapsed w recs <= total legs -> c_state c = ms_running /\
       c_events c = c_events c0 ++ motionStarted :: repeat motionCompleted (finished legs (elapsed w recs))) /\
    (total legs < elapsed w recs -> at_rest c w fo /\ sg_ticks (c_sig c) = 0%N /\ sg_maxTicks (c_sig c) = sg_maxTicks (c_sig c0) /\
       c_events c = c_events c0 ++ motionStarted :: repeat motionCompleted (length legs - 1) ++ [motionStopped; motionCompleted; allMotionsCompleted] /\
       within r (fun i => 55/100 + INR (n + length (qs ++ appended ops)) * creep r w i) (end_of x0 (map snd (qs ++ appended ops))) c) /\
    (forall p q, ops = p ++ q -> exists cp rp, c_run A M c0 (job qs p) = Ok (cp, rp) /\
       within r eps (where_at x0 legs (elapsed w rp)) cp).
Proof.
  intros RE T0 MT JO JN JC JP. destruct (job_core c0 x0 n qs ops RE T0 MT JO JN JC JP) as (c & recs & legs & css & prev & H1 & H2 & H3 & H4 & H5 & H6 & H7 & HC & H8 & H9 & H10 & H11 & H12 & H13 & H14 & H15).
  exists c, recs, legs. split; auto. split; auto. split; auto.
  split. { apply Rmult_le_compat_r; [lra|]. apply IZR_le. lia. }
  destruct (job_ends _ _ _ _ _ _ _ H13) as [E1 E2]. split; auto. split; auto.
  intro H. destruct (E2 H) as (Q1 & Q2 & Q3 & Q4). split; auto. split; auto. split; auto. split; auto.
  assert (LL : length legs = length (qs ++ appended ops)) by (rewrite <- (map_length lg_path), H2, map_length; auto).
  rewrite <- H2, <- LL. exact Q4.
Qed.
End Job.

(** *** On the pins *)
Lemma pulses_done m css a : (a < nmbrAxis)%N -> spaced (cmd_at (N.to_nat a) css) -> last (cmd_at (N.to_nat a) css) None = None ->
  pulses a false (pins_of m css) = commanded (cmd_at (N.to_nat a) css).
Proof.
  intros Ha SP LA.
  destruct css as [|cs0 css1] eqn:EC. { reflexivity. }
  destruct (@exists_last _ (cs0 :: css1)) as (css0 & cs & E); [discriminate|]. rewrite E in *. clear E EC.
  assert (CA : cmd_at (N.to_nat a) (css0 ++ [cs]) = cmd_at (N.to_nat a) css0 ++ [None]).
  { unfold cmd_at in *. rewrite map_app in *. cbn [map] in *. rewrite last_app in LA. cbn [last] in LA. rewrite LA. reflexivity. }
  rewrite CA in *.
  assert (SP0 : spaced (cmd_at (N.to_nat a) css0)).
  { clear - SP. induction (cmd_at (N.to_nat a) css0) as [|x [|y l] IH]; [exact I|exact I|]. destruct SP as [S1 S2]. split; auto. }
  pose proof (pulses_spaced_lemma m css0 a Ha SP0) as PS. rewrite !pulses_w in *.
  destruct (waveform_lemma m (css0 ++ [cs]) a Ha) as [-> ->]. destruct (waveform_lemma m (css0 ++ [[]]) a Ha) as [W1 W2]. rewrite W1, W2 in PS.
  assert (CB : cmd_at (N.to_nat a) (css0 ++ [[]]) = cmd_at (N.to_nat a) css0 ++ [None]).
  { unfold cmd_at. rewrite map_app. cbn [map]. destruct (N.to_nat a); reflexivity. }
  rewrite CB in PS. rewrite CA, PS. unfold commanded. rewrite flat_map_app. cbn. rewrite app_nil_r. reflexivity.
Qed.

(** *** Jobs one after the other *)
Section Jobs.
Variables (M : machine xr) (r : rmach) (w : R) (N : nat).
Notation A := x_arith.
Hypothesis MI : machine_is M r.
Hypothesis W : 0 < w.
Hypothesis RATE : forall i, (i < 3)%nat -> tick_rate r w i + INR N * creep r w i <= 1.
Notation eps := (fun i => 55/100 + INR N * creep r w i).
Notation power_up m := (c_init A m (XF w)).

Lemma rest_override c fo fo' : at_rest c w fo -> at_rest (overridden c fo') w fo'.
Proof. intros []. constructor; auto. Qed.
Lemma run_override c fo ops : c_run A M c (OOverride (XF fo) :: ops) = c_run A M (overridden c fo) ops.
Proof. cbn [c_run c_step rbind]. fold (overridden c fo). destruct (c_run A M (overridden c fo) ops) as [[c' recs]|]; reflexivity. Qed.
Lemma chained_end Ps : forall x0 Qs, end_of x0 (Ps ++ Qs) = end_of (end_of x0 Ps) Qs.
Proof. induction Ps; intros; cbn [app end_of]; auto. Qed.
Lemma spaced_link l : link_spaced None l <-> spaced l.
Proof. unfold link_spaced. destruct l as [|a l]; [split; intro; exact I|]. cbn [spaced is_cmd]. split; [tauto|]. intro H. split; [intros [[=]]|exact H]. Qed.

(** What the records of a piece of a run say, and the counters at its end. *)
Definition covers (c c' : ctrl xr) (recs : list step) (css : list (list (option dir))) : Prop :=
  (forall cs, In cs css -> (length cs <= 3)%nat) /\ fst (fst (sg_run (c_sig c) css)) = c_sig c' /\ snd (sg_run (c_sig c) css) = recs /\
  (forall a, (a < 3)%nat -> nth a (c_pos c') 0%Z = (nth a (c_pos c) 0 + net (cmd_at a css))%Z) /\
  (forall i, (i < 3)%nat -> calm r w N i -> spaced (cmd_at i css)).
Definition settled (css : list (list (option dir))) : Prop := forall i, last (cmd_at i css) None = None.

Lemma covers_nil c : covers c c [] [].
Proof.
  split; [intros ? []|]. split; [reflexivity|]. split; [reflexivity|]. split; [intros; cbn; lia|]. intros; exact I.
Qed.
Lemma covers_app c c1 c2 r1 r2 css1 css2 : covers c c1 r1 css1 -> settled css1 -> covers c1 c2 r2 css2 -> covers c c2 (r1 ++ r2) (css1 ++ css2).
Proof.
  intros (A1 & A2 & A3 & A4 & A5) S (B1 & B2 & B3 & B4 & B5).
  assert (CA : forall i, cmd_at i (css1 ++ css2) = cmd_at i css1 ++ cmd_at i css2) by (intro; apply map_app).
  pose proof (sg_run_app (c_sig c) css1 css2) as RA. destruct (sg_run (c_sig c) css1) as [[g1 p1] q1]. cbn [fst snd] in *. subst g1 q1.
  destruct (sg_run (c_sig c1) css2) as [[g2 p2] q2]. cbn [fst snd] in *. subst g2 q2. unfold covers. rewrite RA. cbn [fst snd].
  split. { intros cs H. apply in_app_or in H. destruct H; auto. } split; auto. split; auto.
  split. { intros a Ha. rewrite B4, A4, CA, net_app by auto. lia. }
  intros i Hi C. rewrite CA. apply spaced_link. apply spaced_app; [apply spaced_link; auto|]. rewrite S. apply spaced_link; auto.
Qed.
Lemma settled_app css1 css2 : settled css1 -> settled css2 -> settled (css1 ++ css2).
Proof. intros S1 S2 i. unfold cmd_at. rewrite map_app, last_app. fold (cmd_at i css1). rewrite S1. apply S2. Qed.

Lemma job_covers c fo x0 n qs ops : 0 < fo -> at_rest c w fo -> sg_ticks (c_sig c) = 0%N -> (sg_maxTicks (c_sig c) < two32)%N ->
  job_ok M r w fo c qs ops -> (n + length (qs ++ appended ops) <= N)%nat -> chained x0 (map snd (qs ++ appended ops)) ->
  within r (fun i => 55/100 + INR n * creep r w i) x0 c ->
  exists c' recs legs css, c_run A M c (job qs ops) = Ok (c', recs) /\
    map lg_path legs = map snd (qs ++ appended ops) /\
    Forall2 (fun q l => leg_ok r (sm_vFeed (fst q)) fo l) (qs ++ appended ops) legs /\
    covers c c' recs css /\ sg_ticks (c_sig c') = 0%N /\ sg_maxTicks (c_sig c') = sg_maxTicks (c_sig c) /\
    IZR (Z.of_N (calcs ops)) * w <= elapsed w recs /\
    (elapsed w recs <= total legs -> c_state c' = ms_running) /\
    (total legs < elapsed w recs -> at_rest c' w fo /\ settled css /\
       within r (fun i => 55/100 + INR (n + length (qs ++ appended ops)) * creep r w i) (end_of x0 (map snd (qs ++ appended ops))) c') /\
    within r eps (where_at x0 legs (elapsed w recs)) c' /\
    (forall p q, ops = p ++ q -> exists cp rp, c_run A M c (job qs p) = Ok (cp, rp) /\
       within r eps (where_at x0 legs (elapsed w rp)) cp) /\
    ticked r w N x0 legs 0 (c_pos c) css.
Proof.
  intros FO RE T0 MT JO JN JC JP.
  destruct (job_core M r w fo N MI FO W RATE c x0 n qs ops RE T0 MT JO JN JC JP) as (c' & recs & legs & css & prev & H1 & H2 & H3 & H4 & H5 & H6 & H7 & HC & H8 & H9 & H10 & H11 & H12 & H13 & H14 & H15).
  destruct (job_ends r w fo N RATE c x0 n legs c' _ _ H13) as [E1 E2].
  assert (LL : length legs = length (qs ++ appended ops)) by (rewrite <- (map_length lg_path), H2, map_length; auto).
  exists c', recs, legs, css. split; auto. split; auto. split; auto. split. { split; auto. }
  split; auto. split; auto. split. { apply Rmult_le_compat_r; [lra|]. apply IZR_le. lia. }
  split. { intro H. apply E1; auto. }
  split. { intro H. destruct (E2 H) as (Q1 & Q2 & _ & Q4). split; auto. split. { intro i. rewrite <- H12. apply Q2. } rewrite <- H2, <- LL. exact Q4. }
  split; [exact (inv_within M r w fo N MI W RATE _ _ _ _ _ _ _ H13)|]. split; auto.
Qed.

Lemma jobs_lemma c js c' recs : jobs_done M r w c js c' recs -> forall fo0 x0 n, at_rest c w fo0 -> sg_ticks (c_sig c) = 0%N ->
  (sg_maxTicks (c_sig c) < two32)%N -> (n + length (motions js) <= N)%nat -> chained x0 (map snd (motions js)) ->
  within r (fun i => 55/100 + INR n * creep r w i) x0 c ->
  c_run A M c (jobs_ops js) = Ok (c', recs) /\ (exists fo, at_rest c' w fo) /\ sg_ticks (c_sig c') = 0%N /\
  sg_maxTicks (c_sig c') = sg_maxTicks (c_sig c) /\
  within r (fun i => 55/100 + INR (n + length (motions js)) * creep r w i) (end_of x0 (map snd (motions js))) c' /\
  exists css, covers c c' recs css /\ settled css.
Proof.
  induction 1 as [c|c fo qs ops c1 recs js c2 recs2 FO JO RU ST JD IH]; intros fo0 x0 n RE T0 MT HN CH PL.
  - split; [reflexivity|]. split; [exists fo0; auto|]. split; auto. split; auto. cbn [motions flat_map length map end_of]. rewrite Nat.add_0_r. split; auto.
    exists []. split; [apply covers_nil|]. intros i. reflexivity.
  - change (motions ((fo, qs, ops) :: js)) with ((qs ++ appended ops) ++ motions js) in *. rewrite map_app in *. apply chained_app in CH. destruct CH as [CH1 CH2].
    rewrite app_length in HN. rewrite run_override in RU.
    destruct (job_covers (overridden c fo) fo x0 n qs ops FO (rest_override _ _ _ RE) T0 MT JO ltac:(lia) CH1 PL)
      as (c' & rs & legs & css & J1 & J2 & J3 & J4 & J5 & J6 & J7 & J8 & J9 & J10 & J11 & J12).
    rewrite J1 in RU. injection RU as -> ->.
    destruct (Rle_lt_dec (elapsed w recs) (total legs)) as [LE|LT]; [specialize (J8 LE); congruence|].
    destruct (J9 LT) as (K1 & K2 & K3).
    destruct (IH fo (end_of x0 (map snd (qs ++ appended ops))) (n + length (qs ++ appended ops))%nat K1 J5 ltac:(rewrite J6; exact MT) ltac:(lia) CH2 K3)
      as (I1 & I2 & I3 & I4 & I5 & css2 & I6 & I7).
    split. { change (jobs_ops ((fo, qs, ops) :: js)) with ((OOverride (XF fo) :: job qs ops) ++ jobs_ops js). eapply run_app; eauto. rewrite run_override. exact J1. }
    split; auto. split; auto. split. { rewrite I4, J6. reflexivity. } rewrite chained_end, app_length, Nat.add_assoc. split; auto.
    exists (css ++ css2). split; [|apply settled_app; auto]. apply covers_app with c1; auto.
Qed.

(** From power-up: what the pins show. *)
Lemma covers_pins m c recs css : (m < two32)%N -> covers (power_up m) c recs css -> sg_ticks (c_sig c) = 0%N ->
  pins_of m css = replay 0 recs /\ forall a, (a < 3)%nat -> nth a (c_pos c) 0%Z = net (cmd_at a css).
Proof.
  intros MT (A1 & A2 & A3 & A4 & _) T0. split.
  - pose proof (records_run css (sg_setMaxTicks sg_zero m) ltac:(now right) MT) as RR. change (c_sig (power_up m)) with (sg_setMaxTicks sg_zero m) in *.
    unfold pins_of. destruct (sg_run (sg_setMaxTicks sg_zero m) css) as [[g pins] rr] eqn:E. cbn [fst snd] in *. destruct RR as (RR & _).
    rewrite A2, T0 in RR. cbn in RR. rewrite app_nil_r in RR. rewrite RR, A3. reflexivity.
  - intros a Ha. rewrite A4 by auto. destruct a as [|[|[|]]]; try lia; reflexivity.
Qed.
Lemma covers_pulses m c recs css a : (m < two32)%N -> covers (power_up m) c recs css -> sg_ticks (c_sig c) = 0%N -> (a < 3)%nat -> calm r w N a ->
  exists pend, (length pend <= 1)%nat /\ net_dirs (pulses (N.of_nat a) false (replay 0 recs) ++ pend) = nth a (c_pos c) 0%Z /\ (settled css -> pend = []).
Proof.
  intros MT CV T0 Ha CA. destruct (covers_pins m c recs css MT CV T0) as [PIN P0]. destruct CV as (_ & _ & _ & _ & SP).
  assert (AN : N.to_nat (N.of_nat a) = a) by lia. assert (AX : (N.of_nat a < nmbrAxis)%N) by (unfold nmbrAxis; lia).
  specialize (SP a Ha CA). rewrite <- AN in SP.
  destruct (option_map (fun _ => tt) (last (cmd_at a css) None)) eqn:EL.
  - destruct (pulses_pending m css (N.of_nat a) AX SP) as (pend & L1 & PP). rewrite AN, PIN in PP. exists pend.
    split; auto. split. { rewrite PP, net_commanded. symmetry. auto. } intro S. rewrite S in EL. discriminate.
  - exists []. split; [cbn; lia|]. rewrite app_nil_r. split; auto.
    rewrite <- PIN, (pulses_done m css (N.of_nat a) AX SP); rewrite AN; [rewrite net_commanded; symmetry; auto|]. destruct (last (cmd_at a css) None); [discriminate|reflexivity].
Qed.

Lemma job_pulses m x0 js c1 r1 fo qs ops : (m < two32)%N -> jobs_done M r w (power_up m) js c1 r1 -> 0 < fo -> job_ok M r w fo (overridden c1 fo) qs ops ->
  let all := motions (js ++ [(fo, qs, ops)]) in
  (length all <= N)%nat -> chained x0 (map snd all) -> within r (fun _ => 55/100) x0 (power_up m) ->
  exists c recs legs, c_run A M (power_up m) (jobs_ops (js ++ [(fo, qs, ops)])) = Ok (c, r1 ++ recs) /\
    map lg_path legs = map snd (qs ++ appended ops) /\
    Forall2 (fun q l => leg_ok r (sm_vFeed (fst q)) fo l) (qs ++ appended ops) legs /\
    IZR (Z.of_N (calcs ops)) * w <= elapsed w recs /\
    within r eps (where_at (end_of x0 (map snd (motions js))) legs (elapsed w recs)) c /\
    (elapsed w recs <= total legs -> c_state c = ms_running) /\
    (total legs < elapsed w recs -> at_rest c w fo /\ within r eps (end_of x0 (map snd all)) c) /\
    forall a, (a < 3)%nat -> calm r w N a -> exists pend, (length pend <= 1)%nat /\
      net_dirs (pulses (N.of_nat a) false (replay 0 (r1 ++ recs)) ++ pend) = nth a (c_pos c) 0%Z /\
      (total legs < elapsed w recs -> pend = []).
Proof.
  intros MT JD FO JO. cbv zeta. unfold motions. rewrite flat_map_app. fold (motions js). cbn [flat_map snd fst]. rewrite app_nil_r, map_app, app_length.
  intros HN CH PL. apply chained_app in CH. destruct CH as [CH1 CH2].
  assert (RE : at_rest (power_up m) w 1) by (constructor; reflexivity).
  assert (PL0 : within r (fun i => 55/100 + INR 0 * creep r w i) x0 (power_up m)).
  { intros i Hi. specialize (PL i Hi). cbn [INR]. lra. }
  destruct (jobs_lemma _ _ _ _ JD 1 x0 0%nat RE eq_refl MT ltac:(lia) CH1 PL0) as (I1 & (fo1 & I2) & I3 & I4 & I5 & css1 & I6 & I7).
  destruct (job_covers (overridden c1 fo) fo _ (0 + length (motions js))%nat qs ops FO (rest_override _ _ _ I2) I3 ltac:(cbn [overridden c_sig]; rewrite I4; exact MT) JO ltac:(lia) CH2 I5)
    as (c & recs & legs & css & J1 & J2 & J3 & J4 & J5 & J6 & J7 & J8 & J9 & J10 & J11 & J12).
  exists c, recs, legs. split. { unfold jobs_ops. rewrite flat_map_app. fold (jobs_ops js). cbn [flat_map snd fst]. rewrite app_nil_r.
    eapply run_app; eauto. rewrite run_override. exact J1. }
  split; auto. split; auto. split; auto. split; auto. split; auto.
  assert (CV : covers (power_up m) c (r1 ++ recs) (css1 ++ css)) by (eapply covers_app; eauto).
  split.
  - intro H. destruct (J9 H) as (K1 & K2 & K3). split; auto. rewrite chained_end. intros i Hi. specialize (K3 i Hi). eapply Rle_trans; [exact K3|].
    apply Rplus_le_compat_l. apply Rmult_le_compat_r; [apply (creep_pos M r w MI W); auto|]. apply le_INR. lia.
  - intros a Ha CA. destruct (covers_pulses m c _ _ a MT CV J5 Ha CA) as (pend & P1 & P2 & P3). exists pend. split; auto. split; auto.
    intro H. apply P3. apply settled_app; auto. apply (J9 H).
Qed.

(** A target on the step grid is met exactly. *)
Lemma job_lands m x0 js c1 r1 fo qs ops a z : (m < two32)%N -> jobs_done M r w (power_up m) js c1 r1 -> 0 < fo -> job_ok M r w fo (overridden c1 fo) qs ops ->
  let all := motions (js ++ [(fo, qs, ops)]) in
  (length all <= N)%nat -> chained x0 (map snd all) -> within r (fun _ => 55/100) x0 (power_up m) ->
  (a < 3)%nat -> calm r w N a -> INR N * creep r w a <= 4/10 -> rm_k r a * end_of x0 (map snd all) a = IZR z ->
  exists c recs legs, c_run A M (power_up m) (jobs_ops (js ++ [(fo, qs, ops)])) = Ok (c, r1 ++ recs) /\
    map lg_path legs = map snd (qs ++ appended ops) /\
    Forall2 (fun q l => leg_ok r (sm_vFeed (fst q)) fo l) (qs ++ appended ops) legs /\
    IZR (Z.of_N (calcs ops)) * w <= elapsed w recs /\
    (total legs < elapsed w recs -> nth a (c_pos c) 0%Z = z /\ net_dirs (pulses (N.of_nat a) false (replay 0 (r1 ++ recs))) = z).
Proof.
  intros MT JD FO JO. cbv zeta. intros HN CH PL Ha CA SM TG.
  destruct (job_pulses m x0 js c1 r1 fo qs ops MT JD FO JO HN CH PL) as (c & recs & legs & J1 & J2 & J3 & J4 & J5 & J6 & J7 & J8).
  exists c, recs, legs. split; auto. split; auto. split; auto. split; auto. intro H. destruct (J7 H) as [_ WI]. destruct (J8 a Ha CA) as (pend & _ & P2 & P3).
  rewrite (P3 H), app_nil_r in P2. specialize (WI a Ha). cbv beta in WI. rewrite TG, <- minus_IZR, <- abs_IZR in WI.
  assert (L : (Z.abs (z - nth a (c_pos c) 0%Z) < 1)%Z) by (apply lt_IZR; lra).
  split; lia.
Qed.
End Jobs.
