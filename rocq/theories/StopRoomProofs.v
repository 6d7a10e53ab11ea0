(** Stopping: when there is room for it. *)
Require Import List Arith NArith ZArith Bool Reals Lra Lia ZifyBool ZifyNat ZifyN.
From Verif Require Import Base BaseProofs EventModel StepModel StepSpec Num NumR MotionModel CtrlModel CtrlSpec CtrlProofs CtrlQueueProofs.
From Verif Require Import CtrlRSpec CtrlTrackProofs CtrlTimeProofs ProfileSpec ProfileProofs GeomSpec GeomProofs PlanProofs RunSpec RunLegProofs RunPlanProofs RunTickProofs RunStartProofs RunProofs StopSpec StopPlanProofs StopQueueProofs StopTickProofs StopProofs StopRunProofs.
Import ListNotations.
Open Scope R_scope.

(** Gaining speed takes at most as long as it would with the full acceleration
    reached and left at the full jerk. *)
Lemma fast_time o v0 v1 a d j r : 0 < a -> d < 0 -> 0 < j -> v0 < v1 -> r_good o v0 v1 a d j r ->
  r_T r <= (v1 - v0) / a + a / j.
Proof.
  intros Ha Hd Hj Hv (E0 & E1 & D1 & D2 & EV & SG & SO & FO). destruct SG as [(_ & EJ & A0)|(V & _)]; [|lra].
  assert (K : 0 < a / j) by (apply Rmult_lt_0_compat; [lra|apply Rinv_0_lt_compat; lra]).
  unfold r_T. destruct o.
  - destruct (FO eq_refl) as [X Y]. rewrite X, Y. destruct (Rlt_dec v0 v1); lra.
  - destruct (SO eq_refl) as [EA [Z|[Z|Z]]].
    + rewrite Z, EJ in *. replace (v1 - v0) with (j * r_d1 r * r_d1 r) by lra.
      apply Rmult_le_reg_r with (a * j); [apply Rmult_lt_0_compat; lra|].
      replace ((j * r_d1 r * r_d1 r / a + a / j) * (a * j)) with ((j * r_d1 r) * (j * r_d1 r) + a * a) by (field; lra).
      pose proof (Rle_0_sqr (j * r_d1 r - a)) as Q. unfold Rsqr in Q. lra.
    + rewrite Z, EJ in *. replace (r_d1 r) with (a / j) by (apply Rmult_eq_reg_l with j; [|lra]; field_simplify; lra).
      assert (Q : (v1 - v0) / a = a / j + r_d2 r); [|lra].
      apply Rmult_eq_reg_r with a; [|lra]. replace ((v1 - v0) / a * a) with (v1 - v0) by (field; lra).
      assert (X : j * r_d1 r = a) by lra. replace (v1 - v0) with (j * r_d1 r * r_d1 r + a * r_d2 r) by lra. rewrite X.
      replace (a / j) with (r_d1 r) by (rewrite <- X; field; lra). ring.
    + lra.
Qed.
Lemma left_time p len minS fo a d j vm b s0 : plan_input p fo 0 0 a d j vm b s0 -> s0 < len -> 0 < vm ->
  exists T1, ad_duration (p_left (p_optimize x_num p (XF len) minS fo maximizeSpeed)) = XF T1 /\ T1 <= vm / a + a / j.
Proof.
  intros PI HL HV. pose proof PI as [I0 I1 IA ID IJ IT IS IC Ha Hd Hj P0 P1].
  assert (FS : feasible 0 0 a d (len - s0)) by (rewrite <- (Rminus_0_r (len - s0)); apply feas; auto; lra).
  destruct (plan_any p len minS fo maximizeSpeed 0 0 a d j vm b s0 PI FS ltac:(lra) ltac:(lra)) as (u & o & PL & UM & FL & AL & PO).
  cbn [target] in *. specialize (PO HV ltac:(lra)). rewrite (Rmin_left 0 0), (Rmax_left vm 0) in UM by lra.
  destruct (optimize_phases p len minS fo maximizeSpeed u o 0 0 a d j b s0) as (o' & r1 & r3 & L2 & PH & _); auto; try lra.
  exists (r_T r1). split; [apply (ph_l _ _ _ _ _ _ _ _ _ _ _ _ _ PH)|].
  pose proof (fast_time _ _ _ _ _ _ _ Ha Hd Hj PO (ph_g1 _ _ _ _ _ _ _ _ _ _ _ _ _ PH)) as F. rewrite Rminus_0_r in F.
  assert (u / a <= vm / a) by (apply Rmult_le_compat_r; [apply Rlt_le, Rinv_0_lt_compat; lra|lra]). lra.
Qed.

Lemma limits_unique M r P V a d V' a' d' : machine_is M r -> limits_ok r P V a d -> limits_ok r P V' a' d' -> a = a' /\ d = d'.
Proof.
  intros MI L L'.
  assert (G : forall V a d V' a' d', limits_ok r P V a d -> limits_ok r P V' a' d' -> a' <= a /\ d <= d').
  { clear - MI. intros V a d V' a' d' L L'. destruct (lo_amax _ _ _ _ _ L) as (i & Hi & E). destruct (lo_dmax _ _ _ _ _ L) as (k & Hk & F).
    pose proof (lo_a _ _ _ _ _ L' i Hi) as G. pose proof (lo_d _ _ _ _ _ L' k Hk) as H. rewrite <- E in G. rewrite <- F in H.
    destruct MI as (_ & _ & MI). destruct (MI i Hi) as (_ & _ & _ & _ & H1 & H2 & H3 & H4). destruct (MI k Hk) as (_ & _ & _ & _ & H5 & H6 & H7 & H8).
    pose proof (Rabs_pos (share P i)) as A1. pose proof (Rabs_pos (share P k)) as A2. destruct (lo_pos _ _ _ _ _ L) as (_ & AP & DN).
    split.
    - apply Rmult_le_reg_r with (Rabs (share P i)); auto. destruct A1 as [|A1]; auto. rewrite <- A1, Rmult_0_r in E. lra.
    - apply Rmult_le_reg_r with (Rabs (share P k)); auto. destruct A2 as [|A2]; auto. rewrite <- A2, Rmult_0_r in F. lra. }
  destruct (G _ _ _ _ _ _ L L'), (G _ _ _ _ _ _ L' L). lra.
Qed.

Section Room.
Variables (M : machine xr) (r : rmach) (w fo : R) (N : nat).
Notation A := x_arith.
Hypothesis MI : machine_is M r.
Hypothesis FO : 0 < fo.
Hypothesis W : 0 < w.
Hypothesis RATE : forall i, (i < 3)%nat -> tick_rate r w i + INR N * creep r w i <= 1.

Lemma courses_room b h q l t : exec r q -> courses M r fo b h q l -> b <= t <= lg_T l ->
  exists s, p_doneDuration (mo_prof h) = XF b /\ p_s x_num (mo_prof h) (XF t) = XF s /\ 0 <= s <= pa_len (snd q) /\
    forall f V a d, sm_vFeed (fst q) = XF f -> limits_ok r (snd q) V a d -> s <= f * fo * t /\
      (b + (f * fo / a + a / rm_j r) < t -> f * fo / 2 * (f * fo / - d + - d / rm_j r) < pa_len (snd q) - s ->
       room_to_stop h t /\ exists y, stop_time h t y /\ y <= f * fo / - d + - d / rm_j r).
Proof.
  intros EX (MH & TR & EP & p & V & a & d & vm & s0 & v & acc & PI & LI & VM & FE & HB & HS & EPR & PS & DU & TS & FN) HT.
  destruct (exec_len r q EX) as [EL LP]. pose proof PI as [I0 I1 IA ID IJ IT IS IC Ha Hd Hj P0 P1]. set (len := pa_len (snd q)) in *.
  destruct (FN t HT) as [F1 F2].
  assert (INC : forall x y, 0 <= x <= y -> y <= lg_T l -> 0 <= lg_s l y - lg_s l x <= vm * (y - x)).
  { intros x y H1 H2. pose proof (lip (lg_s l) v vm 0 x y) as K.
    assert (0 * (y - x) <= lg_s l y - lg_s l x <= vm * (y - x)); [|lra]. apply K; try lra.
    - intros z Hz. apply (ps_speed _ _ _ _ _ _ _ _ _ _ _ _ PS). lra.
    - intros z Hz. apply (ps_scont _ _ _ _ _ _ _ _ _ _ _ _ PS). lra.
    - intros z Hz. apply (ps_vbound _ _ _ _ _ _ _ _ _ _ _ _ PS). lra. }
  destruct (ps_start _ _ _ _ _ _ _ _ _ _ _ _ PS) as [S0 _]. destruct (ps_end _ _ _ _ _ _ _ _ _ _ _ _ PS) as [S1 _].
  pose proof (INC 0 t ltac:(lra) ltac:(lra)) as J1. pose proof (INC t (lg_T l) ltac:(lra) ltac:(lra)) as J2. rewrite S0 in J1. rewrite S1 in J2.
  destruct (optimize_keeps p (XF len) (m_minS M) (XF fo) maximizeSpeed) as (Q1 & Q2 & Q3 & Q4 & Q5 & Q6). rewrite <- EPR in Q1, Q2, Q3, Q4, Q5, Q6.
  assert (DD : p_doneDuration (mo_prof h) = XF b).
  { rewrite EPR. destruct (same_again p (XF len) (m_minS M) (XF fo) maximizeSpeed) as [[_ K] _ _ _ _]. congruence. }
  exists (lg_s l t). split; auto. split; auto. split; [lra|]. intros f V' a' d' EF LI'.
  destruct (limits_unique M r (snd q) _ _ _ _ _ _ MI LI LI') as [<- <-]. specialize (FE f EF).
  assert (VT : 0 <= v t <= f * fo). { pose proof (ps_vbound _ _ _ _ _ _ _ _ _ _ _ _ PS t ltac:(lra)). lra. }
  split. { apply Rle_trans with (vm * (t - 0)); [lra|]. rewrite Rminus_0_r. apply Rmult_le_compat_r; lra. }
  intros R1 R2. destruct (left_time p len (m_minS M) (XF fo) a d (rm_j r) vm b s0 PI HS ltac:(lra)) as (T1 & LT & LB). rewrite <- EPR in LT.
  assert (VA : vm / a <= f * fo / a) by (apply Rmult_le_compat_r; [apply Rlt_le, Rinv_0_lt_compat; lra|lra]).
  assert (BP : 0 < / - d) by (apply Rinv_0_lt_compat; lra).
  assert (JP : 0 < - d / rm_j r) by (apply Rmult_lt_0_compat; [lra|apply Rinv_0_lt_compat; lra]).
  assert (VD : v t / - d <= f * fo / - d) by (apply Rmult_le_compat_r; lra).
  assert (VD0 : 0 <= v t / - d) by (apply Rmult_le_pos; lra).
  split.
  - exists b, T1, (lg_s l t), (v t), d, (rm_j r), len. split; auto. split; auto. split; [right; lra|]. split; auto. split; auto. split; [congruence|]. split; [congruence|].
    split. { rewrite TR, EL. reflexivity. }
    eapply Rle_lt_trans; [|exact R2]. apply Rmult_le_compat; lra.
  - exists (v t / - d + - d / rm_j r). split; [|lra]. exists (v t), d, (rm_j r). repeat split; congruence.
Qed.

Lemma clock_le c0 qs ops clk : motion_clock M w c0 qs ops clk -> forall p q c r1, ops = p ++ q -> c_run A M c0 (session qs p) = Ok (c, r1) -> clk (length p) <= elapsed w r1.
Proof.
  intros [C0 C1] p. induction p as [|o p IH] using rev_ind; intros q c r1 E R.
  - cbn [length]. rewrite C0. unfold elapsed. apply Rmult_le_pos; [apply IZR_le; lia|lra].
  - assert (ES : session qs (p ++ [o]) = session qs p ++ [sop_op o]) by (unfold session; rewrite map_app, app_assoc; reflexivity).
    rewrite ES in R. destruct (run_cut M _ _ _ _ _ R) as (c1 & ra & rb & R1 & R2 & ->). rewrite <- app_assoc in E. specialize (IH _ _ _ E R1).
    cbn [c_run] in R2. unfold rbind in R2. destruct (c_step A M c1 (sop_op o)) as [[c2 r2]|] eqn:ST; [|discriminate]. injection R2 as <- <-.
    destruct (C1 p o q c1 ra c2 r2 E R1 ST) as [K _]. rewrite app_length. cbn [length]. rewrite Nat.add_1_r, app_nil_r, elapsed_app. lra.
Qed.

Lemma room_lemma x0 c0 qs ops c recs : session_ok M r w fo N x0 c0 qs ops -> c_run A M c0 (session qs ops) = Ok (c, recs) -> c_state c = ms_running ->
  exists done m P rest b t s, qs ++ sappended ops = done ++ (m, P) :: rest /\ c_level c = N.of_nat (S (length rest)) /\
    st_time (c_st c) = XF t /\ p_doneDuration (mo_prof (c_getHead A c)) = XF b /\ 0 <= b <= t /\
    p_s x_num (mo_prof (c_getHead A c)) (XF t) = XF s /\ 0 <= s <= pa_len P /\
    forall f V a d, sm_vFeed m = XF f -> limits_ok r P V a d -> s <= f * fo * t /\
      (b + (f * fo / a + a / rm_j r) < t -> f * fo / 2 * (f * fo / - d + - d / rm_j r) < pa_len P - s ->
       may_stop c /\ exists y, stop_time (c_getHead A c) t y /\ y <= f * fo / - d + - d / rm_j r).
Proof.
  intros SU R ST. destruct (session_core M r w fo N MI FO W RATE x0 c0 qs ops SU) as (c' & recs' & legs & clk & css & prev & ph & H1 & H2 & H3 & H4 & _).
  rewrite R in H1. injection H1 as <- <-. destruct H4 as (K1 & K2 & K3 & K4 & K5 & x & legs' & t & E & H).
  destruct legs' as [|l ls]. { destruct H as (_ & RE & _). pose proof (ar_state _ _ _ RE). congruence. }
  destruct H as [TR PH]. destruct ph as [k|].
  { destruct PH as (? & ? & ? & ? & ? & ? & ? & ? & ? & _ & _ & _ & _ & _ & _ & _ & S & _). destruct (k =? 0)%nat; congruence. }
  destruct PH as [_ SK]. unfold mp in *. assert (LE : (length (l :: ls) <= length (qs ++ sappended ops))%nat).
  { pose proof (locate_len _ _ _ _ _ _ E) as L. pose proof (Forall2_len _ _ _ K5) as L2. unfold mp in L2. rewrite L2. exact L. }
  pose proof (lasts_len (qs ++ sappended ops) _ LE) as LL.
  assert (SP : exists done, qs ++ sappended ops = done ++ lasts (length (l :: ls)) (qs ++ sappended ops)).
  { exists (firstn (length (qs ++ sappended ops) - length (l :: ls)) (qs ++ sappended ops)). symmetry. apply firstn_skipn. }
  destruct SP as (done & SP). set (qq := lasts (length (l :: ls)) (qs ++ sappended ops)) in *.
  destruct (queue A c) as [|h os] eqn:QE; [destruct SK|]. destruct qq as [|q qs1]; [destruct SK|]. destruct SK as [(b & B1 & CO) TL].
  assert (EX : exec r q). { eapply Forall_forall in K4; [exact K4|]. rewrite SP. apply in_or_app. right. left. reflexivity. }
  assert (HD : t <= lg_T l) by apply (tr_head _ _ _ _ _ _ _ _ _ _ TR).
  destruct (courses_room b h q l t EX CO ltac:(lra)) as (s & D1 & D2 & D3 & D4).
  assert (LV : c_level c <> 0%N). { intro Z. unfold queue in QE. rewrite Z in QE. discriminate QE. }
  pose proof (tr_wf _ _ _ _ _ _ _ _ _ _ TR) as WF. destruct (queue_pop c WF) as (Q1 & _); [lia|]. rewrite QE in Q1. injection Q1 as QH _.
  destruct (tr_clock _ _ _ _ _ _ _ _ _ _ TR) as (_ & o & _ & _ & TM).
  destruct q as [m P]. cbn [fst snd] in *. exists done, m, P, qs1, b, t, s. split; auto. split.
  { assert (TLN : length os = length ls /\ length qs1 = length ls) by (clear - TL; induction TL; cbn [length]; lia).
    assert (QL : length (queue A c) = N.to_nat (c_level c)) by (unfold queue; apply contents_length). rewrite QE in QL. cbn [length] in QL. destruct TLN as [U1 U2].
    assert (CL : c_level c = N.of_nat (S (length ls))) by lia. rewrite <- U2 in CL. exact CL. }
  rewrite <- QH. split; auto. split; auto. split; [lra|]. split; auto. split; auto.
  intros f V a d EF LI. destruct (D4 f V a d EF LI) as [G1 G2]. split; auto. intros R1 R2. destruct (G2 R1 R2) as (G3 & y & G4 & G5).
  split; [|exists y; auto]. split; auto. exists t. split; auto. rewrite <- QH. auto.
Qed.

(** The sample counter. *)
Lemma index_lemma x0 c0 qs ops c recs : session_ok M r w fo N x0 c0 qs ops -> c_run A M c0 (session qs ops) = Ok (c, recs) ->
  (st_index (c_st c) <= scalcs ops * N.max 1 (sg_maxTicks (c_sig c0)))%N /\ sg_maxTicks (c_sig c) = sg_maxTicks (c_sig c0) /\
  (scalcs ops <= sum_times recs <= scalcs ops * N.max 1 (sg_maxTicks (c_sig c0)))%N.
Proof.
  intros SU R. destruct (session_core M r w fo N MI FO W RATE x0 c0 qs ops SU) as (c' & recs' & legs & clk & css & prev & ph & H1 & H2 & H3 & H4 & _ & _ & HM & HE & _).
  rewrite R in H1. injection H1 as <- <-. split; [|split; auto].
  - pose proof (clock_le c0 qs ops clk H3 ops [] c recs (eq_sym (app_nil_r ops)) R) as CK.
    assert (IX : IZR (Z.of_N (st_index (c_st c))) * w <= clk (length ops)).
    { destruct H4 as (K1 & K2 & K3 & K4 & K5 & x & legs' & t & E & H). destruct (fine_all _ _ _ _ K5) as [MV _].
      assert (TP : Forall (fun l => 0 < lg_T l) legs) by (eapply Forall_impl; [|exact MV]; intros l LM; apply (lm_T _ _ LM)).
      pose proof (locate_le _ _ _ _ _ _ TP E). destruct legs' as [|l ls].
      - destruct H as (_ & RE & _). rewrite (ar_clock _ _ _ RE). cbn. lra.
      - destruct H as [TR _]. pose proof (tr_index _ _ _ _ _ _ _ _ _ _ TR). lra. }
    assert (Z.of_N (st_index (c_st c)) <= Z.of_N (scalcs ops * N.max 1 (sg_maxTicks (c_sig c0))))%Z; [|lia].
    apply le_IZR. apply Rmult_le_reg_r with w; auto. lra.
  - unfold elapsed in HE. split.
    + assert (Z.of_N (scalcs ops) <= Z.of_N (sum_times recs))%Z; [|lia]. apply le_IZR. apply Rmult_le_reg_r with w; auto. lra.
    + assert (Z.of_N (sum_times recs) <= Z.of_N (scalcs ops * N.max 1 (sg_maxTicks (c_sig c0))))%Z; [|lia]. apply le_IZR. apply Rmult_le_reg_r with w; auto. lra.
Qed.

(** The clock of a single motion that has not been stopped. *)
Lemma clock_eq c0 qs ops clk : motion_clock M w c0 qs ops clk ->
  (forall p q c r1, ops = p ++ q -> c_run A M c0 (session qs p) = Ok (c, r1) -> c_state c = ms_running) ->
  forall p q c r1, ops = p ++ q -> c_run A M c0 (session qs p) = Ok (c, r1) -> clk (length p) = elapsed w r1.
Proof.
  intros [C0 C1] RUN p. induction p as [|o p IH] using rev_ind; intros q c r1 E R.
  - cbn [length]. rewrite C0. unfold session in R. cbn [map] in R. rewrite app_nil_r in R.
    assert (NR : forall l c c' rr, Forall (fun o => match o with OAppend _ | OStart => True | _ => False end) l -> c_run A M c l = Ok (c', rr) -> rr = []).
    { clear. induction l as [|o l IH]; intros c c' rr F H; cbn [c_run] in H; [congruence|]. inversion F as [|? ? F1 F2]; subst.
      unfold rbind in H. destruct o; try destruct F1; cbn [c_step] in H.
      - destruct (c_run A M _ l) as [[e t]|] eqn:E; [|discriminate]. injection H as <- <-. rewrite (IH _ _ _ F2 E). reflexivity.
      - destruct (c_run A M _ l) as [[e t]|] eqn:E; [|discriminate]. injection H as <- <-. rewrite (IH _ _ _ F2 E). reflexivity. }
    assert (FJ : Forall (fun o : c_op xr xr => match o with OAppend _ | OStart => True | _ => False end) (job qs [])).
    { unfold job. apply Forall_app. split; [|repeat constructor]. apply Forall_forall. intros z Hz. apply in_map_iff in Hz. destruct Hz as (y & Hy & _). rewrite <- Hy. exact I. }
    rewrite (NR _ _ _ _ FJ R).
    unfold elapsed. cbn. lra.
  - assert (ES : session qs (p ++ [o]) = session qs p ++ [sop_op o]) by (unfold session; rewrite map_app, app_assoc; reflexivity).
    pose proof (RUN _ _ _ _ E R) as ST. rewrite ES in R. destruct (run_cut M _ _ _ _ _ R) as (c1 & ra & rb & R1 & R2 & ->). rewrite <- app_assoc in E. specialize (IH _ _ _ E R1).
    cbn [c_run] in R2. unfold rbind in R2. destruct (c_step A M c1 (sop_op o)) as [[c2 r2]|] eqn:SE; [|discriminate]. injection R2 as <- <-.
    destruct (C1 p o q c1 ra c2 r2 E R1 SE) as (_ & K & _). rewrite app_length. cbn [length]. rewrite Nat.add_1_r, app_nil_r, elapsed_app.
    specialize (K ltac:(congruence)). lra.
Qed.
Lemma single_time x0 c0 q ops c recs : session_ok M r w fo N x0 c0 [q] ops -> sappended ops = [] -> c_run A M c0 (session [q] ops) = Ok (c, recs) ->
  (forall p q' c r1, ops = p ++ q' -> c_run A M c0 (session [q] p) = Ok (c, r1) -> c_state c = ms_running) ->
  st_time (c_st c) = XF (elapsed w recs).
Proof.
  intros SU SA R RUN. destruct (session_core M r w fo N MI FO W RATE x0 c0 [q] ops SU) as (c' & recs' & legs & clk & css & prev & ph & H1 & H2 & H3 & H4 & _).
  rewrite R in H1. injection H1 as <- <-. rewrite <- (clock_eq c0 [q] ops clk H3 RUN ops [] c recs (eq_sym (app_nil_r _)) R).
  rewrite SA, app_nil_r in H4. pose proof (RUN ops [] c recs (eq_sym (app_nil_r _)) R) as ST.
  destruct H4 as (K1 & K2 & K3 & K4 & K5 & x & legs' & t & E & H). inversion K5 as [|? l ? ? F1 F2]; subst. inversion F2; subst.
  cbn [locate] in E. destruct (Rle_dec (clk (length ops)) (lg_T l)).
  - inversion E; subst. destruct H as [TR _]. destruct (tr_clock _ _ _ _ _ _ _ _ _ _ TR) as (_ & o & _ & _ & TM). exact TM.
  - inversion E; subst. destruct H as (_ & RE & _). pose proof (ar_state _ _ _ RE). congruence.
Qed.
End Room.
