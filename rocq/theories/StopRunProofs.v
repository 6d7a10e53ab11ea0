(** Stopping and resuming: sessions from a controller at rest. *)
Require Import List Arith NArith ZArith Bool Reals Lra Lia ZifyBool ZifyNat ZifyN.
From Verif Require Import Base BaseProofs EventModel StepModel StepSpec StepSignalsProofs Num NumR MotionModel CtrlModel CtrlSpec CtrlProofs CtrlQueueProofs.
From Verif Require Import CtrlRSpec CtrlTrackProofs CtrlTimeProofs ProfileSpec GeomSpec GeomProofs PlanProofs RunSpec RunLegProofs RunTickProofs RunPlanProofs RunStartProofs RunProofs StopSpec StopPlanProofs StopQueueProofs StopTickProofs StopProofs.
Import ListNotations.
Open Scope R_scope.

Lemma run_split M (c : ctrl xr) ops1 : forall c0 ops2 c2 r, c_run x_arith M c0 ops1 = Ok (c, []) -> c_run x_arith M c0 (ops1 ++ ops2) = Ok (c2, r) ->
  c_run x_arith M c ops2 = Ok (c2, r).
Proof.
  induction ops1 as [|o ops1 IH]; intros c0 ops2 c2 r H1 H2; cbn [c_run app] in *.
  - inversion H1; subst. exact H2.
  - unfold rbind in *. destruct (c_step x_arith M c0 o) as [[d s]|]; [|discriminate].
    destruct (c_run x_arith M d ops1) as [[e t]|] eqn:E; [|discriminate]. injection H1 as -> H1. apply app_eq_nil in H1. destruct H1 as [-> ->].
    destruct (c_run x_arith M d (ops1 ++ ops2)) as [[e t]|] eqn:E2; [|discriminate]. injection H2 as -> <-. eapply IH; eauto.
Qed.
Lemma run_cut M ops1 : forall (c0 : ctrl xr) ops2 c2 r, c_run x_arith M c0 (ops1 ++ ops2) = Ok (c2, r) ->
  exists c1 r1 r2, c_run x_arith M c0 ops1 = Ok (c1, r1) /\ c_run x_arith M c1 ops2 = Ok (c2, r2) /\ r = r1 ++ r2.
Proof.
  induction ops1 as [|o ops1 IH]; intros c0 ops2 c2 r H; cbn [c_run app] in *.
  - exists c0, [], r. auto.
  - unfold rbind in *. destruct (c_step x_arith M c0 o) as [[d s]|]; [|discriminate].
    destruct (c_run x_arith M d (ops1 ++ ops2)) as [[e t]|] eqn:E; [|discriminate]. injection H as -> <-.
    destruct (IH _ _ _ _ E) as (c1 & r1 & r2 & I1 & I2 & ->). exists c1, (s ++ r1), r2. rewrite I1, app_assoc. auto.
Qed.
Lemma elapsed_app w l1 l2 : elapsed w (l1 ++ l2) = elapsed w l1 + elapsed w l2.
Proof. unfold elapsed. rewrite sum_times_app, N2Z.inj_add, plus_IZR. ring. Qed.

Lemma fine_fine r fo qs legs : Forall2 (fine r fo) qs legs -> Forall2 (fun q l => leg_fine r (sm_vFeed (fst q)) fo l) qs legs.
Proof. induction 1 as [|q l qs legs [K _] _ IH]; constructor; auto. Qed.

Section Session.
Variables (M : machine xr) (r : rmach) (w fo : R) (N : nat).
Notation A := x_arith.
Hypothesis MI : machine_is M r.
Hypothesis FO : 0 < fo.
Hypothesis W : 0 < w.
Hypothesis RATE : forall i, (i < 3)%nat -> tick_rate r w i + INR N * creep r w i <= 1.
Variable x0 : nat -> R.
Notation eps := (fun i => 55/100 + INR N * creep r w i).
Notation sinv := (sinv M r w fo N x0).

Lemma start_session c qs : loaded M r w fo c qs -> Forall (exec r) qs -> qs <> [] -> (length qs <= N)%nat -> chained x0 (map snd qs) ->
  within r (fun _ => 55/100) x0 c ->
  c_pos (c_start A M c) = c_pos c /\ c_sig (c_start A M c) = c_sig c /\
  exists legs, sinv (c_start A M c) qs legs 0 (fun _ => None) None.
Proof.
  intros [H1 H2 H3 H4 H5 H6 H7] EX NE HN CH CL. unfold c_start, c_isEmpty.
  destruct (N.eqb_spec (c_level c) 0) as [E|_]. { destruct qs; [congruence|]. rewrite H3 in E. cbn in E. lia. }
  cbn [negb]. set (c1 := c_with_state (c_emit c [motionStarted]) ms_running).
  assert (PL : planning M r fo c1 qs).
  { constructor; auto. - unfold c1. cbn. rewrite H4. reflexivity.
    - intros j Hj. exists minimizeSpeed. apply (proj1 (at_queue (rdy M r fo minimizeSpeed) c qs H3) H7 j Hj). }
  destruct (optimize_plan M r fo c1 qs EX PL NE) as [F2 WF]. destruct (optimize_keep A M c1) as (K1 & K2 & K3 & K4 & K5 & K6 & K7 & K8 & _).
  set (c' := c_optimize A M c1) in *. rewrite K1, K2. split; auto. split; auto.
  destruct (tailed_make M r fo qs EX _ F2) as (legs & Q2 & Q3). exists legs.
  destruct (fine_all _ _ _ _ Q2) as [LM Q1]. pose proof (Forall2_len _ _ _ Q2) as LL.
  assert (LN : legs <> []) by (destruct legs, qs; try discriminate; congruence).
  assert (H0 : head_T legs 0). { destruct LM as [|l ls L0 _]; cbn; auto. pose proof (lm_T _ _ L0). lra. }
  assert (NW : forall i, (i < 3)%nat -> now x0 legs 0 i = x0 i).
  { intros i Hi. rewrite <- Q1 in CH. destruct LM as [|l ls L0 _]; cbn [now]; auto. rewrite (lm_s0 _ _ L0). cbn [map chained] in CH. apply CH; auto. }
  split; [lra|]. split; auto. split; [rewrite <- LL; exact HN|]. split; auto. split; auto. exists x0, legs, 0. split; [apply locate_in; auto|].
  assert (TR : tracked r w fo N c' x0 legs 0 0 (fun _ => None)).
  { constructor; auto; try lra.
    - unfold clock. rewrite K4. unfold c1. cbn [c_with_state c_emit c_st]. rewrite H4. cbn [st_width st_offset st_index st_time].
      split; auto. exists 0. split; auto. split; [cbn; lra|auto].
    - rewrite Q1. auto.
    - eapply legs_ranged; eauto.
    - rewrite K8. exact H5.
    - rewrite K2. exact H6.
    - intros i Hi. rewrite NW by auto. unfold pos_of. rewrite K2. specialize (CL i Hi). cbv beta in CL.
      change (c_pos c1) with (c_pos c). cbn [INR]. lra.
    - intros i d _ E. discriminate.
    - rewrite K4. unfold c1. cbn [c_with_state c_emit c_st]. rewrite H4. cbn. lra. }
  destruct legs as [|l ls] eqn:EL; [congruence|]. rewrite <- EL in *.
  rewrite Nat.sub_diag. split; auto. rewrite <- LL, lasts_all. split; [rewrite K5; reflexivity|]. apply stocked_fresh; auto.
Qed.

Notation suits := (session_ok M r w fo N x0).
Lemma sappended_app a b : sappended (a ++ b) = sappended a ++ sappended b.
Proof. apply flat_map_app. Qed.
Lemma suits_prefix c0 qs p q : suits c0 qs (p ++ q) -> suits c0 qs p.
Proof.
  unfold session_ok. rewrite sappended_app, (app_assoc qs), map_app, app_length, Forall_app, chained_app. intros (H1 & H2 & H3 & H4 & H5 & [H6 _] & H7 & [H8 _] & H9 & H10).
  repeat (split; [assumption|]). split; [lia|]. split; auto. split; auto.
  intros a o rest c' recs E. apply (H10 a o (rest ++ q)). rewrite E, <- app_assoc. reflexivity.
Qed.

(** One more operation. *)
Lemma session_snoc c0 qs ops o : suits c0 qs ops -> sappended [o] = [] -> (forall c recs, c_run A M c0 (session qs ops) = Ok (c, recs) -> allowed c o) ->
  suits c0 qs (ops ++ [o]).
Proof.
  intros (H1 & H2 & H3 & H4 & H5 & H6 & H7 & H8 & H9 & H10) SA AL. unfold session_ok. rewrite sappended_app, SA, app_nil_r. repeat (split; [assumption|]).
  intros p o' rest c' recs E R. destruct rest as [|o2 rest] using rev_ind.
  - apply app_inj_tail in E. destruct E as [<- <-]. eauto.
  - clear IHrest. rewrite app_comm_cons, app_assoc in E. apply app_inj_tail in E. destruct E as [-> _]. eapply H10; eauto.
Qed.

Lemma session_begin c0 qs ops : suits c0 qs ops ->
  exists c2 legs, c_run A M c0 (job qs []) = Ok (c2, []) /\ c_pos c2 = c_pos c0 /\ c_sig c2 = c_sig c0 /\ sinv c2 qs legs 0 (fun _ => None) None /\
    okfrom M c2 ops.
Proof.
  intros (RE & T0 & MT & NE & QL & EX & HN & CH & CL & PR).
  apply Forall_app in EX. destruct EX as [E1 E2]. rewrite map_app in CH. apply chained_app in CH. destruct CH as [C1 C2]. rewrite app_length in HN.
  destruct (appends_loaded M r w fo MI FO qs c0 [] (rest_loaded M r w fo c0 RE) E1 QL) as (c1 & R1 & LD & P1 & S1 & V1). cbn [app] in LD.
  assert (CL1 : within r (fun _ => 55/100) x0 c1) by (intros i Hi; rewrite P1; apply CL; auto).
  destruct (start_session c1 qs LD E1 NE (Nat.le_trans _ _ _ (Nat.le_add_r _ _) HN) C1 CL1) as (P2 & S2 & legs & IV). set (c2 := c_start A M c1) in *.
  assert (R2 : c_run A M c0 (job qs []) = Ok (c2, [])).
  { unfold job. cbn [map]. apply (run_app M _ [OStart] c0 c1 c2 [] []); auto. }
  exists c2, legs. split; auto. split; [congruence|]. split; [congruence|]. split; auto.
  intros p o rest c' recs E H. apply (PR p o rest c' recs E). unfold session. apply (run_app M _ _ c0 c2 c' [] recs); auto.
Qed.

Lemma session_core c0 qs ops : suits c0 qs ops ->
  exists c recs legs clk css prev ph, c_run A M c0 (session qs ops) = Ok (c, recs) /\
    Forall2 (fine r fo) (qs ++ sappended ops) legs /\ motion_clock M w c0 qs ops clk /\
    sinv c (qs ++ sappended ops) legs (clk (length ops)) prev ph /\ covers r w N c0 c recs css /\ sg_ticks (c_sig c) = 0%N /\
    sg_maxTicks (c_sig c) = sg_maxTicks (c_sig c0) /\
    IZR (Z.of_N (scalcs ops)) * w <= elapsed w recs <= IZR (Z.of_N (scalcs ops * N.max 1 (sg_maxTicks (c_sig c0)))) * w /\
    (forall i, prev i = last (cmd_at i css) None) /\
    (forall p q, ops = p ++ q -> exists cp rp, c_run A M c0 (session qs p) = Ok (cp, rp) /\ within r eps (where_at x0 legs (clk (length p))) cp /\
       (c_state cp = ms_stopped -> standing x0 legs (clk (length p)))).
Proof.
  intro SU. destruct (session_begin c0 qs ops SU) as (c2 & legs & R2 & P2 & S2 & IV & OK).
  destruct SU as (RE & T0 & MT & NE & QL & EX & HN & CH & CL & PR).
  apply Forall_app in EX. destruct EX as [E1 E2]. rewrite map_app in CH. apply chained_app in CH. destruct CH as [C1 C2]. rewrite app_length in HN.
  assert (LL : length qs = length legs) by (destruct IV as (_ & _ & _ & _ & F & _); eapply Forall2_len; exact F).
  destruct (run_sinv M r w fo N MI FO W RATE x0 ops c2 qs legs 0 (fun _ => None) None IV ltac:(congruence) ltac:(congruence) OK E2 C2 ltac:(rewrite <- LL; exact HN))
    as (c & recs & css & prev & legs' & ph & clk & I1 & I2 & I3 & I4 & I5 & I6 & I7 & _ & I8).
  exists c, recs, legs', clk, css, prev, ph.
  split. { unfold session. apply (run_app M _ _ c0 c2 c [] recs); auto. }
  split. { apply I3. }
  split. { split; auto. intros p o rest d1 r1 d2 r2 E H1 H2. unfold session in H1. eapply (I6 p o rest d1 r1 d2 r2 E); eauto. eapply run_split; eauto. }
  split; auto. destruct I2 as (A1 & A2 & A3 & A4 & A5 & A6 & A7 & A8 & A9).
  split. { split; auto. rewrite S2 in A2, A3. split; auto. split; auto. split. { intros a Ha. rewrite A7, P2 by auto. reflexivity. }
    intros i Hi CA. apply spaced_link. auto. }
  split; auto. split; [congruence|]. split; [|split; auto].
  { unfold elapsed. rewrite S2 in I8. rewrite A4. split; apply Rmult_le_compat_r; try lra; apply IZR_le; lia. }
  intros p q E. destruct (I7 p q E) as (cp & rp & J1 & J2). exists cp, rp. split; auto. unfold session. apply (run_app M _ _ c0 c2 cp [] rp); auto.
Qed.

(** The queue tells whether it is over. *)
Lemma sinv_ends c qs legs T prev ph : sinv c qs legs T prev ph ->
  (c_level c <> 0%N -> T <= total legs) /\
  (c_level c = 0%N -> total legs < T /\ at_rest c w fo /\ (forall i, prev i = None) /\ within r eps (end_of x0 (map snd qs)) c).
Proof.
  intro IV. pose proof (sinv_within M r w fo N MI W RATE x0 _ _ _ _ _ _ IV) as WI. destruct IV as (H1 & H2 & H3 & H4 & H5 & x & legs' & t & E & H). destruct (fine_all _ _ _ _ H5) as [MV EP].
  destruct (locate_total r legs x0 T MV) as [L1 L2]. destruct legs' as [|l ls].
  - destruct H as (_ & RE & PN & CL). destruct (Rle_lt_dec T (total legs)) as [LE|LT]. { specialize (L2 LE H2). rewrite E in L2. cbn [fst snd] in L2. congruence. }
    split. { intro K. destruct K. apply (ar_level _ _ _ RE). } intros _. split; auto. split; auto. split; auto.
    unfold where_at in WI. rewrite (L1 LT), EP in WI. exact WI.
  - destruct H as [TR PH].
    assert (LV : c_level c <> 0%N).
    { intro K. assert (Q : queue A c = []) by (unfold queue; rewrite K; reflexivity). destruct ph as [k|].
      - destruct PH as (? & ? & ? & ? & ? & ? & ? & ? & ? & _ & _ & QE & _). congruence.
      - destruct PH as [_ SK]. rewrite Q in SK. destruct SK. }
    split; [|tauto]. intros _. destruct (Rle_lt_dec T (total legs)) as [LE|LT]; auto. specialize (L1 LT). congruence.
Qed.

Lemma session_lemma c0 qs ops : suits c0 qs ops ->
  exists c recs legs clk, c_run A M c0 (session qs ops) = Ok (c, recs) /\
    map lg_path legs = map snd (qs ++ sappended ops) /\
    Forall2 (fun q l => leg_fine r (sm_vFeed (fst q)) fo l) (qs ++ sappended ops) legs /\
    motion_clock M w c0 qs ops clk /\ IZR (Z.of_N (scalcs ops)) * w <= elapsed w recs /\
    (forall p q, ops = p ++ q -> exists cp rp, c_run A M c0 (session qs p) = Ok (cp, rp) /\ within r eps (where_at x0 legs (clk (length p))) cp /\
       (c_state cp = ms_stopped -> standing x0 legs (clk (length p)))) /\
    (c_level c <> 0%N -> clk (length ops) <= total legs) /\
    (c_level c = 0%N -> total legs < clk (length ops) /\ at_rest c w fo /\ within r eps (end_of x0 (map snd (qs ++ sappended ops))) c).
Proof.
  intro SU. destruct (session_core c0 qs ops SU) as (c & recs & legs & clk & css & prev & ph & H1 & H2 & H3 & H4 & _ & _ & _ & [HE _] & _ & H5).
  destruct (sinv_ends _ _ _ _ _ _ H4) as [H6 H7].
  exists c, recs, legs, clk. split; auto. split; [apply (fine_all _ _ _ _ H2)|]. split; [apply fine_fine; auto|].
  split; auto. split; auto. split; auto. split; auto. intro E. destruct (H7 E) as (K1 & K2 & K3 & K4). auto.
Qed.

(** A stop takes effect in time. *)
Lemma stops_lemma c0 qs p ops c1 r1 t y c recs : suits c0 qs (p ++ SStop :: ops) -> Forall quiet ops ->
  c_run A M c0 (session qs p) = Ok (c1, r1) -> st_time (c_st c1) = XF t -> stop_time (c_getHead A c1) t y ->
  c_run A M c0 (session qs (p ++ SStop :: ops)) = Ok (c, r1 ++ recs) -> y + w <= elapsed w recs ->
  c_state c = ms_stopped /\ c_level c <> 0%N.
Proof.
  intros SU QU R1 HT HY R2 HE.
  destruct (session_core c0 qs p (suits_prefix _ _ _ _ SU)) as (c1' & r1' & legs & clk & css & prev & ph & H1 & H2 & H3 & H4 & H5 & H6 & HM & _).
  rewrite R1 in H1. injection H1 as <- <-.
  destruct (session_begin c0 qs _ SU) as (c2 & legs2 & Q1 & Q2 & Q3 & Q4 & OK).
  assert (RP : c_run A M c2 (map sop_op p) = Ok (c1, r1)) by (eapply run_split; eauto).
  assert (AL : may_stop c1) by (apply (OK p SStop ops c1 r1 eq_refl RP)).
  destruct (stop_sinv M r w fo N W RATE x0 c1 _ legs _ prev ph H4 AL) as (legs1 & k & t' & y' & S1 & S2 & S3 & S4 & S5 & S6 & S7).
  assert (t' = t) as -> by congruence.
  assert (y' = y) as ->.
  { destruct S6 as (v & d & j & U1 & U2 & U3 & ->), HY as (v' & d' & j' & U4 & U5 & U6 & ->). congruence. }
  destruct SU as (RE & T0 & MT & NE & QL & EX & HN & CH & CL & PR). rewrite sappended_app, (sappended_cons SStop ops) in *. cbn [sappended flat_map app] in EX, HN, CH.
  fold (sappended ops) in *. rewrite app_assoc in EX, HN, CH. apply Forall_app in EX. destruct EX as [EX1 EX2].
  rewrite map_app in CH. apply chained_app in CH. destruct CH as [CH1 CH2]. rewrite app_length in HN.
  assert (LL : length (qs ++ sappended p) = length legs1) by (destruct S1 as (_ & _ & _ & _ & F & _); eapply Forall2_len; exact F).
  assert (OK2 : okfrom M (c_stop A M c1) ops).
  { intros a o rest c' recs' E HR. apply (OK (p ++ SStop :: a) o rest c' (r1 ++ recs')). { rewrite E, <- app_assoc. reflexivity. }
    rewrite map_app. apply (run_app M _ _ c2 c1 c' r1 recs'); auto. cbn [map c_run sop_op c_step]. unfold rbind. rewrite HR. reflexivity. }
  destruct (run_sinv M r w fo N MI FO W RATE x0 ops _ _ legs1 _ prev (Some k) S1 ltac:(congruence) ltac:(rewrite S4, HM; exact MT) OK2 EX2 CH2 ltac:(rewrite <- LL; exact HN))
    as (c' & recs' & css' & prev' & legs' & ph' & clk' & I1 & I2 & I3 & _ & _ & _ & _ & I8 & _).
  specialize (I8 k eq_refl QU). subst ph'.
  assert (EQ : c = c' /\ recs = recs').
  { assert (RR : c_run A M c0 (session qs (p ++ SStop :: ops)) = Ok (c', r1 ++ recs')).
    { unfold session. rewrite map_app, app_assoc. apply (run_app M _ _ c0 c1 c' r1 recs'); auto. cbn [map c_run sop_op c_step]. unfold rbind. rewrite I1. reflexivity. }
    rewrite RR in R2. injection R2 as <- E. apply app_inv_head in E. auto. }
  destruct EQ as [-> ->]. destruct I2 as (_ & _ & _ & ST & _). unfold elapsed in HE. rewrite ST, nat_N_Z, <- INR_IZR_INZ in HE.
  assert (KL : (k <= length css')%nat).
  { apply INR_le. apply Rmult_le_reg_r with w; auto. lra. }
  replace (k - length css')%nat with 0%nat in I3 by lia.
  destruct I3 as (_ & _ & _ & _ & _ & x & lg & tt & _ & H). destruct lg as [|l ls]; [destruct H; discriminate|]. destruct H as [_ PH].
  destruct PH as (? & ? & ? & ? & ? & ? & ? & ? & ? & _ & _ & QE & _ & _ & _ & _ & K & _). split; [exact K|]. intro E. unfold queue in QE. rewrite E in QE. discriminate.
Qed.

(** Every record takes at least a tick. *)
Lemma rest_lemma c0 qs p ops c1 r1 c recs : suits c0 qs (p ++ ops) -> c_run A M c0 (session qs p) = Ok (c1, r1) ->
  c_run A M c0 (session qs (p ++ ops)) = Ok (c, r1 ++ recs) -> IZR (Z.of_N (scalcs ops)) * w <= elapsed w recs.
Proof.
  intros SU R1 R2.
  destruct (session_core c0 qs p (suits_prefix _ _ _ _ SU)) as (c1' & r1' & legs & clk & css & prev & ph & H1 & H2 & H3 & H4 & H5 & H6 & HM & _).
  rewrite R1 in H1. injection H1 as <- <-.
  destruct (session_begin c0 qs _ SU) as (c2 & legs2 & Q1 & Q2 & Q3 & Q4 & OK).
  assert (RP : c_run A M c2 (map sop_op p) = Ok (c1, r1)) by (eapply run_split; eauto).
  destruct SU as (RE & T0 & MT & NE & QL & EX & HN & CH & CL & PR). rewrite sappended_app in *.
  rewrite app_assoc in EX, HN, CH. apply Forall_app in EX. destruct EX as [EX1 EX2].
  rewrite map_app in CH. apply chained_app in CH. destruct CH as [CH1 CH2]. rewrite app_length in HN.
  assert (LL : length (qs ++ sappended p) = length legs) by (destruct H4 as (_ & _ & _ & _ & F & _); eapply Forall2_len; exact F).
  assert (OK2 : okfrom M c1 ops).
  { intros a o rest c' recs' E HR. apply (OK (p ++ a) o rest c' (r1 ++ recs')). { rewrite E, <- app_assoc. reflexivity. }
    rewrite map_app. apply (run_app M _ _ c2 c1 c' r1 recs'); auto. }
  destruct (run_sinv M r w fo N MI FO W RATE x0 ops _ _ legs _ prev ph H4 H6 ltac:(rewrite HM; exact MT) OK2 EX2 CH2 ltac:(rewrite <- LL; exact HN))
    as (c' & recs' & css' & prev' & legs' & ph' & clk' & I1 & I2 & _ & _ & _ & _ & _ & _ & I8).
  assert (EQ : recs = recs').
  { assert (RR : c_run A M c0 (session qs (p ++ ops)) = Ok (c', r1 ++ recs')).
    { unfold session. rewrite map_app, app_assoc. apply (run_app M _ _ c0 c1 c' r1 recs'); auto. }
    rewrite RR in R2. injection R2 as _ E. apply app_inv_head in E. auto. }
  subst recs'. destruct I2 as (_ & _ & _ & ST & _). unfold elapsed. rewrite ST. apply Rmult_le_compat_r; [lra|]. apply IZR_le. lia.
Qed.
End Session.

(** *** On the pins *)
Section Pins.
Variables (M : machine xr) (r : rmach) (w : R) (N : nat).
Notation A := x_arith.
Hypothesis MI : machine_is M r.
Hypothesis W : 0 < w.
Hypothesis RATE : forall i, (i < 3)%nat -> tick_rate r w i + INR N * creep r w i <= 1.
Notation eps := (fun i => 55/100 + INR N * creep r w i).

Lemma session_pulses m fo x0 qs ops : 0 < fo -> session_ok M r w fo N x0 (overridden (c_init A m (XF w)) fo) qs ops ->
  exists c recs legs clk, c_run A M (c_init A m (XF w)) (OOverride (XF fo) :: session qs ops) = Ok (c, recs) /\
    map lg_path legs = map snd (qs ++ sappended ops) /\
    Forall2 (fun q l => leg_fine r (sm_vFeed (fst q)) fo l) (qs ++ sappended ops) legs /\
    motion_clock M w (overridden (c_init A m (XF w)) fo) qs ops clk /\
    within r eps (where_at x0 legs (clk (length ops))) c /\
    forall a, (a < 3)%nat -> calm r w N a -> exists pend, (length pend <= 1)%nat /\
      net_dirs (pulses (N.of_nat a) false (replay 0 recs) ++ pend) = nth a (c_pos c) 0%Z /\
      (c_level c = 0%N -> pend = []).
Proof.
  intros FO SU. destruct (session_core M r w fo N MI FO W RATE x0 _ qs ops SU) as (c & recs & legs & clk & css & prev & ph & H1 & H2 & H3 & H4 & H5 & H6 & HM & _ & H7 & H8).
  destruct SU as (_ & _ & MT & _). change ((m < two32)%N) in MT.
  exists c, recs, legs, clk. split; [rewrite run_override; exact H1|]. split; [apply (fine_all _ _ _ _ H2)|]. split; [apply fine_fine; auto|].
  split; auto. split. { eapply sinv_within; eauto. }
  intros a Ha CA. destruct (covers_pulses r w N RATE m c recs css a MT H5 H6 Ha CA) as (pend & P1 & P2 & P3). exists pend. split; auto. split; auto.
  intro E. apply P3. intro i. destruct (sinv_ends M r w fo N MI W RATE x0 _ _ _ _ _ _ H4) as [_ K]. destruct (K E) as (_ & _ & PN & _). rewrite <- H7. auto.
Qed.
End Pins.
