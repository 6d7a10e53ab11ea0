(** Stopping and resuming: whole sessions. *)
Require Import List Arith NArith ZArith Bool Reals Lra Lia ZifyBool ZifyNat ZifyN.
From Verif Require Import Base BaseProofs EventModel StepModel StepSpec StepSignalsProofs Num NumR MotionModel CtrlModel CtrlSpec CtrlProofs CtrlQueueProofs.
From Verif Require Import CtrlRSpec CtrlTrackProofs CtrlTimeProofs ProfileSpec GeomSpec GeomProofs PlanProofs RunSpec RunLegProofs RunTickProofs RunPlanProofs RunStartProofs RunProofs StopSpec StopPlanProofs StopQueueProofs StopTickProofs.
Import ListNotations.
Open Scope R_scope.

Lemma lasts_snoc {X} (l : list X) n x : (n <= length l)%nat -> lasts (n + 1) (l ++ [x]) = lasts n l ++ [x].
Proof.
  intro H. unfold lasts. rewrite app_length. cbn [length]. replace (length l + 1 - (n + 1))%nat with (length l - n)%nat by lia.
  rewrite skipn_app. replace (length l - n - length l)%nat with 0%nat by lia. reflexivity.
Qed.

Lemma sum_times_app l1 l2 : sum_times (l1 ++ l2) = (sum_times l1 + sum_times l2)%N.
Proof. unfold sum_times. induction l1; cbn [app fold_right]; lia. Qed.
Lemma sappended_cons o ops : sappended (o :: ops) = sappended [o] ++ sappended ops.
Proof. destruct o; reflexivity. Qed.
Lemma scalcs_cons o ops : scalcs (o :: ops) = (scalcs [o] + scalcs ops)%N.
Proof. destruct o; reflexivity. Qed.
Lemma stopped_dec (s : motionState) : {s = ms_stopped} + {s <> ms_stopped}.
Proof. decide equality. Qed.

Section Session.
Variables (M : machine xr) (r : rmach) (w fo : R) (N : nat).
Notation A := x_arith.
Hypothesis MI : machine_is M r.
Hypothesis FO : 0 < fo.
Hypothesis W : 0 < w.
Hypothesis RATE : forall i, (i < 3)%nat -> tick_rate r w i + INR N * creep r w i <= 1.
Variable x0 : nat -> R.
Notation eps := (fun i => 55/100 + INR N * creep r w i).
Notation sinv := (sinv M r w fo N x0).
Notation fine := (fine r fo).

Lemma calc_sinv k : forall c qs legs T prev ph, sinv c qs legs T prev ph ->
  (sg_ticks (c_sig c) + N.of_nat k < two32)%N -> (st_index (c_st c) + N.of_nat k < two32)%N ->
  c_calc A M k c = Ok None \/
  exists c' s css prev' T', c_calc A M k c = Ok (Some (c', s)) /\
    (forall cs, In cs css -> (length cs <= 3)%nat) /\ (length css <= k)%nat /\
    fst (fst (sg_run (c_sig c) css)) = c_sig c' /\ snd (sg_run (c_sig c) css) = [s] /\
    timeBefore s = (sg_ticks (c_sig c) + N.of_nat (length css))%N /\ sg_ticks (c_sig c') = 0%N /\
    sg_maxTicks (c_sig c') = sg_maxTicks (c_sig c) /\
    (forall a, (a < 3)%nat -> nth a (c_pos c') 0%Z = (nth a (c_pos c) 0 + net (cmd_at a css))%Z) /\
    (forall i, (i < 3)%nat -> calm r w N i -> link_spaced (prev i) (cmd_at i css)) /\
    (forall i, prev' i = last (cmd_at i css) (prev i)) /\
    sinv c' qs legs T' prev' (option_map (fun n => (n - length css)%nat) ph) /\
    T <= T' <= T + INR (length css) * w /\ (c_state c' <> ms_stopped -> T' = T + INR (length css) * w) /\
    (c_state c = ms_stopped -> T' = T /\ c_state c' = ms_stopped).
Proof.
  induction k; intros c qs legs T prev ph IV HT HI; [left; reflexivity|].
  pose proof (sinv_pos _ _ _ _ _ _ _ _ _ _ _ _ IV) as HL.
  destruct (tick_sinv M r w fo N MI W RATE x0 c qs legs T prev ph IV ltac:(lia)) as (c1 & cs & T1 & T2 & T3 & T4 & T5 & T7 & T8).
  destruct (tick_ticks A M c c1 HL T1) as (K1 & K2 & K3). unfold add32, w32 in K1. rewrite N.mod_small in K1 by lia.
  pose proof (tick_index M c c1 T1 ltac:(lia)) as IX.
  assert (SP : forall i, (i < 3)%nat -> calm r w N i -> ~ (is_cmd (prev i) = true /\ is_cmd (nth i cs None) = true)).
  { intros i Hi CA. apply is_cmd_none. apply T5; auto. }
  assert (PC : 0 <= pace w c <= w /\ (c_state c1 <> ms_stopped -> pace w c = w) /\ (c_state c = ms_stopped -> pace w c = 0)).
  { unfold pace. split; [destruct (c_state c); lra|]. split; [|intros ->; reflexivity]. intro NS. destruct (c_state c) eqn:EC; auto. exfalso. auto. }
  destruct PC as (PC1 & PC2 & PC3).
  cbn [c_calc]. unfold rbind. rewrite T1. destruct (sg_isModified (c_sig c1) || sg_isTimedOut (c_sig c1)) eqn:EM.
  - right. destruct (sg_output (c_sig c1)) as [g s] eqn:EO. exists (c_with_sig c1 g), s, [cs], (fun i => nth i cs None), (T + pace w c).
    assert (EO' := EO). unfold sg_output in EO'. injection EO' as EG ES.
    split; auto. split. { intros ? [<-|[]]. destruct T2 as [->| ->]; cbn; lia. }
    split; [cbn; lia|]. cbn [sg_run]. unfold sg_tick. rewrite <- T3, EM, EO. cbn [fst snd c_with_sig c_sig c_pos c_st c_state].
    split; [reflexivity|]. split; [reflexivity|].
    split. { rewrite <- ES. cbn [timeBefore length]. lia. }
    split. { rewrite <- EG. reflexivity. } split. { rewrite <- EG. exact K2. }
    split. { intros a Ha. rewrite T4, add_cmds_nth by auto. cbn [cmd_at map net fold_right]. lia. }
    split. { intros i Hi CA. cbn [cmd_at map]. split; [apply SP; auto|exact I]. }
    split; [reflexivity|]. cbn [length INR]. replace (option_map (fun n => (n - 1)%nat) ph) with (option_map pred ph) by (destruct ph; cbn; auto; f_equal; lia).
    split. { apply sinv_sig. exact T7. } split; [lra|]. split. { intro H. rewrite PC2 by auto. ring. }
    intro H. rewrite (PC3 H). split; [ring|auto].
  - destruct (IHk c1 qs legs (T + pace w c) (fun i => nth i cs None) (option_map pred ph) T7 ltac:(lia) ltac:(lia))
      as [N0|(c' & s & css & prev' & T' & Q1 & Q2 & Q3 & Q4 & Q5 & Q6 & Q7 & Q8 & Q9 & Q10 & Q11 & Q13 & Q14 & Q15 & Q16)]; [left; auto|].
    right. exists c', s, (cs :: css), prev', T'. split; auto. split. { intros ? [<-|Hin]; auto. destruct T2 as [->| ->]; cbn; lia. }
    split; [cbn [length]; lia|]. cbn [sg_run]. unfold sg_tick. rewrite <- T3, EM.
    destruct (sg_run (c_sig c1) css) as [[g pins] recs] eqn:ER. cbn [fst snd] in *.
    split; [auto|]. split; [auto|]. split; [cbn [length]; lia|]. split; auto. split; [congruence|].
    split. { intros a Ha. rewrite Q9, T4, add_cmds_nth by auto.
      change (net (cmd_at a (cs :: css))) with (zdir (nth a cs None) + net (cmd_at a css))%Z. lia. }
    split. { intros i Hi CA. cbn [cmd_at map]. split; [apply SP; auto|]. apply Q10; auto. }
    split. { intro i. rewrite Q11. cbn [cmd_at map]. rewrite last_cons. reflexivity. }
    cbn [length]. replace (option_map (fun n => (n - S (length css))%nat) ph) with (option_map (fun n => (n - length css)%nat) (option_map pred ph))
      by (destruct ph; cbn; auto; f_equal; lia).
    split; auto. rewrite S_INR. split; [lra|]. split.
    + intro H. rewrite (Q15 H). destruct (stopped_dec (c_state c1)) as [E|E].
      * exfalso. apply H. apply Q16; auto.
      * rewrite PC2 by auto. ring.
    + intro H. destruct (Q16 (T8 H)) as [-> E]. rewrite (PC3 H). split; [ring|auto].
Qed.

(** *** The host's operations *)
Lemma swap_sinv c c' qs legs T prev x l ls t q qs1 l' ls' ph' : 0 <= T -> legs <> [] -> (length legs <= N)%nat -> Forall (exec r) qs -> Forall2 fine qs legs ->
  locate x0 legs T = (x, l :: ls, t) -> tracked r w fo N c x (l :: ls) t (length legs - length (l :: ls)) prev ->
  lasts (length (l :: ls)) qs = q :: qs1 -> fine q l' -> Forall2 fine qs1 ls' -> (forall y, y <= t -> lg_s l' y = lg_s l y) -> t <= lg_T l' ->
  wfq c' -> c_st c' = c_st c -> c_pos c' = c_pos c -> c_fo c' = c_fo c -> phase M r w fo c' (q :: qs1) (l' :: ls') t ph' ->
  exists legs', sinv c' qs legs' T prev ph' /\ forall y i, y <= T -> where_at x0 legs' y i = where_at x0 legs y i.
Proof.
  intros H1 H2 H3 H4 H5 E TR LA F1 F2 AG HT WF ES EP EF PH.
  destruct (locate_swap _ _ _ _ _ _ _ E) as (done & D1 & D2).
  rewrite D1 in H5. destruct (Forall2_app_inv_r _ _ H5) as (qd & qt & U1 & U2 & EQ).
  assert (LQ : length qt = length (l :: ls)) by (eapply Forall2_len; eauto).
  assert (QT : qt = q :: qs1). { rewrite <- LA, EQ, <- LQ. symmetry. apply lasts_app. }
  subst qt. assert (FL : fine q l) by (inversion U2; auto).
  assert (PE : lg_path l' = lg_path l) by (destruct F1, FL; congruence).
  destruct (D2 l' ls' HT PE AG) as [L1 L2]. exists (done ++ l' :: ls'). split; auto.
  assert (F3 : Forall2 fine (q :: qs1) (l' :: ls')) by (constructor; auto).
  assert (LL : length (l' :: ls') = length (l :: ls)) by (rewrite <- (Forall2_len _ _ _ F3); auto).
  destruct (fine_all _ _ _ _ F3) as [M3 P3]. destruct (fine_all _ _ _ _ U2) as [_ P2].
  split; auto. split. { destruct done; discriminate. }
  split. { rewrite app_length, LL, <- app_length, <- D1. auto. } split; auto. split. { rewrite EQ. apply Forall2_app; auto. }
  exists x, (l' :: ls'), t. split; auto. rewrite LL, LA. split; auto.
  replace (length (done ++ l' :: ls')) with (length legs) by (rewrite D1, !app_length, LL; auto).
  destruct TR as [R1 R2 R3 R4 R5 R6 R7 R8 R9 R10 R11 R12 R13].
  assert (NW : now x (l' :: ls') t = now x (l :: ls) t). { unfold now. rewrite PE, AG by lra. reflexivity. }
  constructor; auto; try congruence.
  - unfold clock. rewrite ES. auto.
  - assert (EXL : Forall (exec r) (q :: qs1)). { rewrite EQ in H4. apply Forall_app in H4. apply H4. }
    eapply legs_ranged; eauto.
  - rewrite NW. intros i Hi. unfold pos_of. rewrite EP. apply R11; auto.
  - rewrite NW. intros i d Hi. unfold pos_of. rewrite EP. apply R12; auto.
Qed.

Lemma lasts_split qs legs T x l ls t : Forall2 fine qs legs -> locate x0 legs T = (x, l :: ls, t) ->
  exists q qs1, lasts (length (l :: ls)) qs = q :: qs1 /\ fine q l /\ Forall2 fine qs1 ls.
Proof.
  intros H5 E. destruct (locate_split _ _ _ _ _ _ E) as (done & D1).
  rewrite D1 in H5. destruct (Forall2_app_inv_r _ _ H5) as (qd & qt & U1 & U2 & EQ).
  assert (LQ : length qt = length (l :: ls)) by (eapply Forall2_len; eauto).
  inversion U2 as [|q ? qs1 ? F1 F2]; subst qt; subst. exists q, qs1. split; auto. rewrite <- LQ. apply lasts_app.
Qed.
Lemma lasts_exec n qs : Forall (exec r) qs -> Forall (exec r) (lasts n qs).
Proof.
  intro H4. unfold lasts. apply Forall_forall. intros q Hq. eapply Forall_forall in H4; eauto.
  rewrite <- (firstn_skipn (length qs - n) qs). apply in_or_app. auto.
Qed.

Lemma queue_getHead (c : ctrl xr) h os : wfq c -> queue A c = h :: os -> c_getHead A c = h.
Proof.
  intros WF Q. destruct (queue_pop c WF) as (Q1 & _).
  - assert (c_level c <> 0%N); [|lia]. intro E. unfold queue in Q. rewrite E in Q. discriminate Q.
  - rewrite Q in Q1. congruence.
Qed.

Lemma stop_sinv c qs legs T prev ph : sinv c qs legs T prev ph -> may_stop c ->
  exists legs' k t y, sinv (c_stop A M c) qs legs' T prev (Some k) /\ (forall y i, y <= T -> where_at x0 legs' y i = where_at x0 legs y i) /\
    c_pos (c_stop A M c) = c_pos c /\ c_sig (c_stop A M c) = c_sig c /\
    st_time (c_st c) = XF t /\ stop_time (c_getHead A c) t y /\ INR k * w <= y + w.
Proof.
  intros (H1 & H2 & H3 & H4 & H5 & x & legs' & t & E & H) (ST & t0 & TM & RM).
  destruct legs' as [|l ls]. { destruct H as (_ & R & _). pose proof (ar_state _ _ _ R). congruence. }
  destruct H as [TR PH]. destruct ph as [k|].
  { destruct PH as (? & ? & ? & ? & ? & ? & ? & ? & ? & _ & _ & _ & _ & _ & _ & _ & K & _). rewrite ST in K. destruct (k =? 0)%nat; discriminate. }
  destruct PH as [_ SK]. destruct (lasts_split _ _ _ _ _ _ _ H5 E) as (q & qs1 & LA & F1 & F2). rewrite LA in SK.
  destruct (queue A c) as [|o os] eqn:QE; [destruct SK|]. cbn [stocked] in SK. destruct SK as [(b & B1 & CO) TL].
  pose proof (lasts_exec (length (l :: ls)) qs H4) as EXL. rewrite LA in EXL. inversion EXL as [|? ? EQ EX1]; subst.
  pose proof (tr_wf _ _ _ _ _ _ _ _ _ _ TR) as WF. pose proof (tr_clock _ _ _ _ _ _ _ _ _ _ TR) as CK. pose proof (tr_head _ _ _ _ _ _ _ _ _ _ TR) as HD. cbn [head_T] in HD.
  assert (t0 = t) as -> by (destruct CK as (_ & ? & _ & _ & K); congruence).
  pose proof (queue_getHead c o os WF QE) as GH. rewrite GH in *.
  destruct (stop_courses M r w fo W b o q l t EQ CO ltac:(lra) RM) as (l' & ts & tR & k & y & K1 & K2 & K3 & K4 & K5 & K6 & K7 & BK).
  set (c1 := c_with_state (c_emit c [stopRequested]) ms_stopping).
  assert (AG : again M r fo c1 o qs1 minimizeSpeed t).
  { apply (again_queue M r fo c1 o os qs1); auto; [eapply tailed_any; eauto|apply (tr_fo _ _ _ _ _ _ _ _ _ _ TR)]. }
  destruct (optimize_again_queue M r fo o qs1 minimizeSpeed t EX1 (courses_vEnd _ _ _ _ _ _ _ CO) (proj1 CO) c1 AG) as (os' & Q1 & Q2 & Q3).
  change (c_optimize A M c1) with (c_stop A M c) in *.
  destruct (optimize_keep A M c1) as (O1 & O2 & O3 & O4 & O5 & O6 & O7 & O8 & _). change (c_optimize A M c1) with (c_stop A M c) in *.
  destruct (swap_sinv c (c_stop A M c) qs legs T prev x l ls t q qs1 l' ls (Some k) H1 H2 H3 H4 H5 E TR LA) as (legs' & S1 & S2); auto.
  - split. { eapply courses_fine; eauto. apply (bk_again _ _ _ _ _ _ _ _ _ BK). } rewrite K4. apply F1.
  - pose proof (bk_time _ _ _ _ _ _ _ _ _ BK). pose proof (bk_last _ _ _ _ _ _ _ _ _ BK). lra.
  - cbn [phase]. exists q, qs1, l', ls, (mo_optimize_at A M o (XF fo) minimizeSpeed (XF t)), os', t, ts, tR. split; auto. split; auto. split; auto. split; auto.
    split. { pose proof (tr_t _ _ _ _ _ _ _ _ _ _ TR). lra. } split; auto. split; auto. split. { rewrite O5. destruct (Nat.eqb_spec k 0); [lia|reflexivity]. }
    clear - Q2. induction Q2; constructor; auto. exists minimizeSpeed; auto.
  - exists legs', k, t, y. split; auto. split; auto. split; [rewrite O2; reflexivity|]. split; [rewrite O1; reflexivity|]. split; auto. split; auto. lra.
Qed.

Lemma start_sinv c qs legs T prev ph : sinv c qs legs T prev ph -> c_state c = ms_stopped -> c_level c <> 0%N ->
  exists legs', sinv (c_start A M c) qs legs' T prev None /\ (forall y i, y <= T -> where_at x0 legs' y i = where_at x0 legs y i) /\
    c_pos (c_start A M c) = c_pos c /\ c_sig (c_start A M c) = c_sig c.
Proof.
  intros (H1 & H2 & H3 & H4 & H5 & x & legs' & t & E & H) ST LV.
  destruct legs' as [|l ls]. { destruct H as (_ & R & _). pose proof (ar_level _ _ _ R). congruence. }
  destruct H as [TR PH]. destruct ph as [k|]; [|destruct PH; congruence].
  destruct PH as (q & qs1 & l0 & ls0 & h & os & t0 & ts & tR & LA & EL & QE & BK & HT0 & ETR & HTR & SK & AN).
  injection EL as <- <-. rewrite ST in SK. destruct (Nat.eqb_spec k 0) as [->|]; [|discriminate]. cbn [INR] in ETR. assert (tR = t) as -> by lra.
  pose proof (lasts_exec (length (l :: ls)) qs H4) as EXL. rewrite LA in EXL. inversion EXL as [|? ? EQ EX1]; subst.
  destruct (lasts_split _ _ _ _ _ _ _ H5 E) as (q' & qs' & LA' & F1 & F2). rewrite LA in LA'. injection LA' as <- <-.
  pose proof (tr_wf _ _ _ _ _ _ _ _ _ _ TR) as WF. pose proof (tr_clock _ _ _ _ _ _ _ _ _ _ TR) as CK. pose proof (tr_head _ _ _ _ _ _ _ _ _ _ TR) as HD. cbn [head_T] in HD.
  set (c1 := c_with_state (c_emit c [motionStarted]) ms_running).
  assert (CS : c_start A M c = c_optimize A M c1). { unfold c_start, c_isEmpty. destruct (N.eqb_spec (c_level c) 0); [contradiction|]. reflexivity. }
  assert (AG : again M r fo c1 h qs1 maximizeSpeed t).
  { apply (again_queue M r fo c1 h os qs1); auto; [destruct CK as (_ & ? & _ & _ & K); exact K|apply (tr_fo _ _ _ _ _ _ _ _ _ _ TR)]. }
  pose proof BK as [B1 B2 B3 B4 B5 B6 B7 B8 B9 B10 B11].
  destruct (optimize_again_queue M r fo h qs1 maximizeSpeed t EX1 B6 B1 c1 AG) as (os' & Q1 & Q2 & Q3).
  rewrite <- CS in *. destruct (optimize_keep A M c1) as (O1 & O2 & O3 & O4 & O5 & O6 & O7 & O8 & _). rewrite <- CS in *.
  destruct (tailed_make M r fo qs1 EX1 os' Q2) as (ls' & U1 & U2).
  destruct (swap_sinv c (c_start A M c) qs legs T prev x l ls t q qs1 l ls' None H1 H2 H3 H4 H5 E TR LA) as (legs' & S1 & S2); auto.
  - cbn [phase]. split; [rewrite O5; reflexivity|]. rewrite Q1. cbn [stocked]. split; auto. exists t. split; [|exact B11].
    pose proof (tr_t _ _ _ _ _ _ _ _ _ _ TR). lra.
  - exists legs'. split; auto.
Qed.

Lemma append_sinv c qs legs T prev ph q : sinv c qs legs T prev ph -> exec r q -> c_level c <> 0%N -> (c_level c < 32)%N -> (length legs < N)%nat ->
  chained (end_of x0 (map snd qs)) [snd q] ->
  exists l, sinv (c_append A M c (fst q)) (qs ++ [q]) (legs ++ [l]) T prev ph /\
    (forall y i, y <= T -> where_at x0 (legs ++ [l]) y i = where_at x0 legs y i) /\
    c_pos (c_append A M c (fst q)) = c_pos c /\ c_sig (c_append A M c (fst q)) = c_sig c.
Proof.
  intros (H1 & H2 & H3 & H4 & H5 & x & legs' & t & E & H) EX LV LV2 HN CH.
  destruct legs' as [|l ls]. { destruct H as (_ & R & _). pose proof (ar_level _ _ _ R). congruence. }
  destruct H as [TR PH].
  pose proof (tr_wf _ _ _ _ _ _ _ _ _ _ TR) as WF.
  destruct (push_queue M c (fst q) WF LV2) as (P1 & P2 & P3 & P4 & o & P5).
  destruct (append_keep A M c (fst q)) as (K1 & K2 & K3 & K4).
  pose proof (set_ready M r fo MI FO o q (c_strategy c) EX) as RD. rewrite (tr_fo _ _ _ _ _ _ _ _ _ _ TR) in P5.
  assert (LG : exists ln, fine q ln /\ (c_strategy c = maximizeSpeed -> courses M r fo 0 (mo_set A M o (fst q) (XF fo) (c_strategy c)) q ln)).
  { destruct (c_strategy c).
    - destruct (ready_courses M r fo _ q EX RD) as (ln & L1 & L2 & L3). exists ln. split; auto. split; auto. eapply courses_fine; eauto.
    - pose proof (ready_optimize M r fo _ maximizeSpeed _ q EX RD) as RD2.
      destruct (ready_courses M r fo _ q EX RD2) as (ln & L1 & L2 & L3). exists ln. split; [|discriminate]. split; auto. eapply courses_fine; eauto. }
  destruct LG as (ln & FN & CO). exists ln.
  destruct (locate_swap _ _ _ _ _ _ _ E) as (done & D1 & D2).
  pose proof (tr_head _ _ _ _ _ _ _ _ _ _ TR) as HD. cbn [head_T] in HD.
  destruct (D2 l (ls ++ [ln]) HD eq_refl ltac:(auto)) as [L1 L2].
  assert (EL : legs ++ [ln] = done ++ l :: ls ++ [ln]) by (rewrite D1, <- app_assoc; reflexivity).
  split. 2:{ rewrite EL. split; auto. }
  destruct (fine_all _ _ _ _ H5) as [MV PE].
  split; auto. split. { destruct legs; discriminate. } split. { rewrite app_length. cbn [length]. lia. }
  split. { apply Forall_app. auto. } split. { apply Forall2_app; auto. }
  exists x, (l :: ls ++ [ln]), t. split. { rewrite EL. exact L1. }
  assert (QL : length qs = length legs) by (eapply Forall2_len; eauto).
  assert (LEN : (length (l :: ls) <= length legs)%nat) by (eapply locate_len; eauto).
  replace (length (legs ++ [ln]) - length (l :: ls ++ [ln]))%nat with (length legs - length (l :: ls))%nat by (cbn [length]; rewrite !app_length; cbn [length]; lia).
  replace (length (l :: ls ++ [ln])) with (length (l :: ls) + 1)%nat by (cbn [length]; rewrite app_length; cbn [length]; lia).
  rewrite lasts_snoc by lia.
  split.
  - destruct TR as [R1 R2 R3 R4 R5 R6 R7 R8 R9 R10 R11 R12 R13]. constructor; auto; try congruence.
    + unfold clock. rewrite K3. auto.
    + change (l :: ls ++ [ln]) with ((l :: ls) ++ [ln]). rewrite map_app. apply chained_app. split; auto.
      rewrite (locate_end _ _ _ _ _ _ E), PE. cbn [map]. destruct FN as [_ ->]. exact CH.
    + change (l :: ls ++ [ln]) with ((l :: ls) ++ [ln]). apply Forall_app. split; auto. constructor; auto. eapply fine_moves. apply FN.
    + change (l :: ls ++ [ln]) with ((l :: ls) ++ [ln]). apply Forall_app. split; auto. constructor; auto. destruct FN as [_ ->]. destruct EX as (_ & _ & _ & _ & RG). exact RG.
    + intros i Hi. unfold pos_of. rewrite K2. apply R11; auto.
    + intros i d Hi. unfold pos_of. rewrite K2. apply R12; auto.
  - destruct ph as [k|]; cbn [phase] in *.
    + destruct PH as (q0 & qs1 & l0 & ls0 & h & os & t0 & ts & tR & LA & EL0 & QE & BK & HT0 & ETR & HTR & SK & AN).
      injection EL0 as <- <-. exists q0, (qs1 ++ [q]), l, (ls ++ [ln]), h. eexists. exists t0, ts, tR.
      rewrite LA. split; auto. split; auto. split. { rewrite P5, QE. reflexivity. } split; auto. split; auto. split; auto. split; auto. split; [congruence|].
      apply Forall2_app; auto. constructor; auto. exists (c_strategy c). exact RD.
    + destruct PH as [ST SK]. split; [congruence|]. rewrite P5. destruct (queue A c) as [|o0 os]; [destruct SK|].
      destruct (lasts (length (l :: ls)) qs) as [|q0 qs1]; [destruct SK|]. cbn [app stocked] in *. destruct SK as [S1 S2]. split; auto.
      assert (SS : c_strategy c = maximizeSpeed) by (unfold c_strategy; rewrite ST; auto).
      apply tailed_app; auto. rewrite SS in RD |- *. exact RD.
Qed.

Lemma sinv_within c qs legs T prev ph : sinv c qs legs T prev ph -> within r eps (where_at x0 legs T) c.
Proof.
  intros (H1 & H2 & H3 & H4 & H5 & x & legs' & t & E & H) i Hi. unfold where_at. rewrite E. pose proof (creep_pos M r w MI W i Hi) as CP.
  destruct legs' as [|l ls].
  - destruct H as (_ & _ & _ & H). specialize (H i Hi). eapply Rle_trans; [exact H|].
    apply Rplus_le_compat_l. apply Rmult_le_compat_r; auto. apply le_INR; auto.
  - destruct H as (H & _). pose proof (tr_close _ _ _ _ _ _ _ _ _ _ H i Hi) as C. cbn [now] in C. eapply Rle_trans; [exact C|].
    apply Rplus_le_compat_l. apply Rmult_le_compat_r; auto. apply le_INR; lia.
Qed.

Lemma sinv_standing c qs legs T prev ph : sinv c qs legs T prev ph -> c_state c = ms_stopped -> standing x0 legs T.
Proof.
  intros (H1 & H2 & H3 & H4 & H5 & x & legs' & t & E & H) ST. destruct (fine_all _ _ _ _ H5) as [MV _].
  assert (TP : Forall (fun l => 0 < lg_T l) legs) by (eapply Forall_impl; [|exact MV]; intros l LM; apply (lm_T _ _ LM)).
  destruct legs' as [|l ls].
  - destruct (locate_total r legs x0 T MV) as [L1 L2].
    destruct (Rle_lt_dec T (total legs)) as [LE|LT]. { specialize (L2 LE H2). rewrite E in L2. cbn [fst snd] in L2. congruence. }
    exists ((T - total legs) / 2). split; [lra|]. intros y i Hy. unfold where_at. rewrite (L1 LT).
    destruct (locate_total r legs x0 y MV) as [L3 _]. rewrite L3 by lra. reflexivity.
  - destruct H as [TR PH]. destruct ph as [k|]; [|destruct PH; congruence].
    destruct PH as (q & qs1 & l0 & ls0 & h & os & t0 & ts & tR & LA & EL & QE & BK & HT0 & ETR & HTR & SK & AN).
    injection EL as <- <-. rewrite ST in SK. destruct (Nat.eqb_spec k 0) as [->|]; [|discriminate]. cbn [INR] in ETR. assert (tR = t) as -> by lra.
    pose proof (bk_time _ _ _ _ _ _ _ _ _ BK) as BT. pose proof (bk_rest _ _ _ _ _ _ _ _ _ BK) as BR.
    exists ((t - ts) / 2). split; [lra|]. intros y i Hy. unfold where_at. rewrite E.
    replace y with (T - (T - y)) by ring. rewrite (locate_back legs x0 T x l ls t (T - y) TP E) by lra.
    rewrite (BR (t - (T - y))), (BR t) by lra. reflexivity.
Qed.

(** *** A sequence of operations *)
Definition okfrom (c : ctrl xr) (ops : list sop) : Prop :=
  forall p o rest c' recs, ops = p ++ o :: rest -> c_run A M c (map sop_op p) = Ok (c', recs) -> allowed c' o.
Lemma okfrom_tail o ops c c' recs : c_step A M c (sop_op o) = Ok (c', recs) -> okfrom c (o :: ops) -> okfrom c' ops.
Proof.
  intros H F p o' rest c2 recs2 E R. apply (F (o :: p) o' rest c2 (recs ++ recs2)); [rewrite E; reflexivity|].
  cbn [app map c_run] in *. unfold rbind. rewrite H, R. reflexivity.
Qed.

(** What the records of a piece of a session say. *)
Definition traced (c c' : ctrl xr) (recs : list step) (css : list (list (option dir))) (prev prev' : nat -> option dir) : Prop :=
  (forall cs, In cs css -> (length cs <= 3)%nat) /\
  fst (fst (sg_run (c_sig c) css)) = c_sig c' /\ snd (sg_run (c_sig c) css) = recs /\
  sum_times recs = N.of_nat (length css) /\ sg_ticks (c_sig c') = 0%N /\ sg_maxTicks (c_sig c') = sg_maxTicks (c_sig c) /\
  (forall a, (a < 3)%nat -> nth a (c_pos c') 0%Z = (nth a (c_pos c) 0 + net (cmd_at a css))%Z) /\
  (forall i, (i < 3)%nat -> calm r w N i -> link_spaced (prev i) (cmd_at i css)) /\
  (forall i, prev' i = last (cmd_at i css) (prev i)).
Lemma traced_same c c' prev : sg_ticks (c_sig c) = 0%N -> c_sig c' = c_sig c -> c_pos c' = c_pos c -> traced c c' [] [] prev prev.
Proof.
  intros T0 E1 E2. unfold traced. rewrite E1, E2. split; [intros ? []|]. split; [reflexivity|]. split; [reflexivity|]. split; [reflexivity|]. split; auto. split; auto.
  split. { intros; cbn; lia. } split; [intros; exact I|reflexivity].
Qed.
Lemma traced_app c c1 c2 r1 r2 css1 css2 p p1 p2 : traced c c1 r1 css1 p p1 -> traced c1 c2 r2 css2 p1 p2 -> traced c c2 (r1 ++ r2) (css1 ++ css2) p p2.
Proof.
  intros (A1 & A2 & A3 & A4 & A5 & A6 & A7 & A8 & A9) (B1 & B2 & B3 & B4 & B5 & B6 & B7 & B8 & B9).
  assert (CA : forall i, cmd_at i (css1 ++ css2) = cmd_at i css1 ++ cmd_at i css2) by (intro; apply map_app).
  pose proof (sg_run_app (c_sig c) css1 css2) as RA. destruct (sg_run (c_sig c) css1) as [[g1 p1'] q1]. cbn [fst snd] in *. subst g1 q1.
  destruct (sg_run (c_sig c1) css2) as [[g2 p2'] q2]. cbn [fst snd] in *. subst g2 q2. unfold traced. rewrite RA. cbn [fst snd].
  split. { intros cs H. apply in_app_or in H. destruct H; auto. } split; auto. split; auto. split. { rewrite sum_times_app, A4, B4, app_length. lia. }
  split; auto. split; [congruence|]. split. { intros a Ha. rewrite B7, A7, CA, net_app by auto. lia. }
  split. { intros i Hi C. rewrite CA. apply spaced_app; auto. rewrite <- A9. auto. }
  intro i. rewrite B9, CA, last_app, A9. reflexivity.
Qed.

(** The time spent moving in one operation. *)
Definition spent (c1 c2 : ctrl xr) (r2 : list step) (dt : R) : Prop :=
  0 <= dt <= elapsed w r2 /\ (c_state c2 <> ms_stopped -> dt = elapsed w r2) /\ (c_state c1 = ms_stopped -> dt = 0).

Lemma step_sinv c qs legs T prev ph o : sinv c qs legs T prev ph -> sg_ticks (c_sig c) = 0%N -> (sg_maxTicks (c_sig c) < two32)%N ->
  allowed c o -> Forall (exec r) (sappended [o]) -> chained (end_of x0 (map snd qs)) (map snd (sappended [o])) -> (length legs + length (sappended [o]) <= N)%nat ->
  exists c1 r1 css prev1 legs1 T1 ph1, c_step A M c (sop_op o) = Ok (c1, r1) /\ traced c c1 r1 css prev prev1 /\
    sinv c1 (qs ++ sappended [o]) legs1 T1 prev1 ph1 /\ (forall y i, y <= T -> where_at x0 legs1 y i = where_at x0 legs y i) /\ spent c c1 r1 (T1 - T) /\
    (forall k, ph = Some k -> quiet o -> ph1 = Some (k - length css)%nat) /\
    (scalcs [o] <= N.of_nat (length css) <= scalcs [o] * N.max 1 (sg_maxTicks (c_sig c)))%N.
Proof.
  intros IV T0 MT AL EX CH HN. destruct o as [|m P| |]; cbn [sappended flat_map app sop_op allowed] in *.
  - set (mt := sg_maxTicks (c_sig c)) in *. set (k := N.to_nat (N.max 1 mt)).
    assert (KM : (N.max 1 mt < two32)%N) by (unfold two32 in *; lia).
    pose proof (sinv_pos _ _ _ _ _ _ _ _ _ _ _ _ IV) as HL.
    destruct (calc_sinv k c qs legs T prev ph IV ltac:(lia) ltac:(lia)) as [N0|(c1 & s & css & prev1 & T1 & Q1 & Q2 & Q3 & Q4 & Q5 & Q6 & Q7 & Q8 & Q9 & Q10 & Q11 & Q13 & Q14 & Q15 & Q16)].
    { exfalso. destruct (calc_terminates A M k c HL ltac:(lia) ltac:(lia) ltac:(lia) ltac:(lia)) as [C|(c' & s & C & _)]; congruence. }
    exists c1, [s], css, prev1, legs, T1. eexists. rewrite app_nil_r.
    assert (ELA : elapsed w [s] = INR (length css) * w).
    { unfold elapsed, sum_times. cbn [fold_right]. rewrite Q6, T0, N.add_0_l, N.add_0_r, nat_N_Z, <- INR_IZR_INZ. reflexivity. }
    split. { cbn [c_step]. fold mt. fold k. unfold rbind. rewrite Q1. reflexivity. }
    split. { unfold traced. split; auto. split; auto. split; auto. split. { unfold sum_times. cbn [fold_right]. lia. } auto 10. }
    split; [exact Q13|]. split; auto. unfold spent. rewrite ELA. split; [|split; [intros n -> _; reflexivity|]].
    + split; [lra|]. split. { intro H. rewrite (Q15 H). lra. } intro H. destruct (Q16 H). lra.
    + cbn [scalcs]. fold mt. destruct css; [discriminate Q5|]. cbn [length] in *. lia.
  - inversion EX as [|? ? EQ _]; subst. destruct AL as [L1 L2]. cbn [length] in HN.
    destruct (append_sinv c qs legs T prev ph (m, P) IV EQ L1 L2 ltac:(lia) CH) as (l & S1 & S2 & S3 & S4). cbn [fst] in *.
    exists (c_append A M c m), [], [], prev, (legs ++ [l]), T, ph. split; [reflexivity|]. split; [apply traced_same; auto|]. split; auto. split; auto.
    split; [|split; [intros n -> _; cbn [length]; f_equal; lia|cbn; lia]]. unfold spent, elapsed. cbn [sum_times fold_right Z.of_N]. split; [lra|]. split; intros; lra.
  - destruct (stop_sinv c qs legs T prev ph IV AL) as (legs1 & k & t & y & S1 & S2 & S3 & S4 & _).
    exists (c_stop A M c), [], [], prev, legs1, T, (Some k). rewrite app_nil_r. split; [reflexivity|]. split; [apply traced_same; auto|]. split; auto. split; auto.
    split; [|split; [intros n _ []|cbn; lia]]. unfold spent, elapsed. cbn [sum_times fold_right Z.of_N]. split; [lra|]. split; intros; lra.
  - destruct AL as [L1 L2]. destruct (start_sinv c qs legs T prev ph IV L1 L2) as (legs1 & S1 & S2 & S3 & S4).
    exists (c_start A M c), [], [], prev, legs1, T, None. rewrite app_nil_r. split; [reflexivity|]. split; [apply traced_same; auto|]. split; auto. split; auto.
    split; [|split; [intros n _ []|cbn; lia]]. unfold spent, elapsed. cbn [sum_times fold_right Z.of_N]. split; [lra|]. split; intros; lra.
Qed.

Lemma run_sinv : forall ops c qs legs T prev ph, sinv c qs legs T prev ph -> sg_ticks (c_sig c) = 0%N -> (sg_maxTicks (c_sig c) < two32)%N ->
  okfrom c ops -> Forall (exec r) (sappended ops) -> chained (end_of x0 (map snd qs)) (map snd (sappended ops)) -> (length legs + length (sappended ops) <= N)%nat ->
  exists c' recs css prev' legs' ph' clk, c_run A M c (map sop_op ops) = Ok (c', recs) /\ traced c c' recs css prev prev' /\
    sinv c' (qs ++ sappended ops) legs' (clk (length ops)) prev' ph' /\ clk 0%nat = T /\ (forall y i, y <= T -> where_at x0 legs' y i = where_at x0 legs y i) /\
    (forall p o rest c1 r1 c2 r2, ops = p ++ o :: rest -> c_run A M c (map sop_op p) = Ok (c1, r1) -> c_step A M c1 (sop_op o) = Ok (c2, r2) ->
       spent c1 c2 r2 (clk (S (length p)) - clk (length p))) /\
    (forall p q, ops = p ++ q -> exists cp rp, c_run A M c (map sop_op p) = Ok (cp, rp) /\ within r eps (where_at x0 legs' (clk (length p))) cp /\
       (c_state cp = ms_stopped -> standing x0 legs' (clk (length p)))) /\
    (forall k, ph = Some k -> Forall quiet ops -> ph' = Some (k - length css)%nat) /\
    (scalcs ops <= N.of_nat (length css) <= scalcs ops * N.max 1 (sg_maxTicks (c_sig c)))%N.
Proof.
  induction ops as [|o ops IH]; intros c qs legs T prev ph IV T0 MT OK EX CH HN.
  - exists c, [], [], prev, legs, ph, (fun _ => T). cbn [map c_run sappended flat_map length]. rewrite app_nil_r.
    split; [reflexivity|]. split; [apply traced_same; auto|]. split; auto. split; auto. split; auto. split; [|split].
    + intros p o rest c1 r1 c2 r2 E. destruct p; discriminate.
    + intros p q E. symmetry in E. apply app_eq_nil in E. destruct E as [-> ->]. exists c, []. split; [reflexivity|]. split; [eapply sinv_within; eauto|]. eapply sinv_standing; eauto.
    + split; [intros k -> _; cbn [length]; f_equal; lia|cbn; lia].
  - rewrite (sappended_cons o ops) in *.
    rewrite map_app in CH. apply chained_app in CH. destruct CH as [CH1 CH2]. apply Forall_app in EX. destruct EX as [EX1 EX2]. rewrite app_length in HN.
    destruct (step_sinv c qs legs T prev ph o IV T0 MT (OK [] o ops c [] eq_refl eq_refl) EX1 CH1 ltac:(lia))
      as (c1 & r1 & css1 & prev1 & legs1 & T1 & ph1 & S1 & S2 & S3 & S4 & S5 & S6 & S7).
    assert (LL : length legs1 = (length legs + length (sappended [o]))%nat).
    { destruct IV as (_ & _ & _ & _ & F1 & _). destruct S3 as (_ & _ & _ & _ & F2 & _). apply Forall2_len in F1. apply Forall2_len in F2. rewrite app_length in F2. rewrite <- F2, <- F1. reflexivity. }
    pose proof S2 as (_ & _ & _ & _ & TK & MX & _).
    destruct (IH c1 (qs ++ sappended [o]) legs1 T1 prev1 ph1 S3 TK ltac:(rewrite MX; exact MT) (okfrom_tail o ops c c1 r1 S1 OK) EX2)
      as (c' & r2 & css2 & prev' & legs' & ph' & clk & I1 & I2 & I3 & I4 & I5 & I6 & I7 & I8 & I9).
    { rewrite map_app, chained_end. exact CH2. } { lia. }
    exists c', (r1 ++ r2), (css1 ++ css2), prev', legs', ph', (fun k => match k with O => T | S k => clk k end).
    split. { cbn [map c_run]. unfold rbind. rewrite S1, I1. reflexivity. }
    split. { eapply traced_app; eauto. } rewrite <- app_assoc in I3. split; [exact I3|]. split; auto.
    assert (TT : T <= T1) by (destruct S5; lra).
    assert (WH : forall y i, y <= T -> where_at x0 legs' y i = where_at x0 legs y i). { intros y i Hy. rewrite I5 by lra. apply S4; auto. }
    split; auto. split; [|split].
    + intros p o' rest d1 q1 d2 q2 E R1 R2. destruct p as [|o0 p].
      * cbn [app map c_run length] in *. inversion E; subst o' rest. inversion R1; subst d1 q1. rewrite S1 in R2. inversion R2; subst d2 q2. rewrite I4. exact S5.
      * cbn [app map c_run length] in *. inversion E; subst o0. unfold rbind in R1. rewrite S1 in R1.
        destruct (c_run A M c1 (map sop_op p)) as [[e1 e2]|] eqn:ER; [|discriminate]. inversion R1; subst d1 q1.
        eapply (I6 p o' rest e1 e2 d2 q2); eauto.
    + intros p q E. destruct p as [|o0 p].
      * exists c, []. split; [reflexivity|]. cbn [length]. split. { intros i Hi. rewrite WH by lra. eapply sinv_within; eauto. }
        intro ST. destruct (sinv_standing _ _ _ _ _ _ IV ST) as (d & D1 & D2). exists d. split; auto. intros y i Hy. rewrite !WH by lra. auto.
      * inversion E; subst o0. destruct (I7 p q ltac:(auto)) as (cp & rp & J1 & J2). exists cp, (r1 ++ rp). cbn [map c_run length]. unfold rbind. rewrite S1, J1. auto.
    + split; [intros k EK FQ; inversion FQ as [|? ? Q1 Q2]; subst; rewrite (I8 _ (S6 k eq_refl Q1) Q2), app_length; f_equal; lia|].
      rewrite (scalcs_cons o ops), app_length, Nat2N.inj_add. rewrite MX in I9. rewrite N.mul_add_distr_r. lia.
Qed.
End Session.
