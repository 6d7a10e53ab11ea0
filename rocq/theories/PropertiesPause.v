(** Stopping and resuming in exact arithmetic: C73. *)
Require Import List Arith NArith ZArith Bool Reals Lra Lia ZifyBool ZifyNat ZifyN.
From Verif Require Import Base EventModel StepModel StepSpec Num NumR MotionModel CtrlModel CtrlSpec CtrlRSpec ProfileSpec GeomSpec GeomProofs RunSpec PlanProofs RunBriefProofs StopSpec StopProofs StopRunProofs StopRoomProofs PropertiesRun SystemProofs.
Import ListNotations.
Open Scope R_scope.

(** C73 (partial).  Exact arithmetic; the stops are asked for when there is room (see
    [room_to_stop]; outside of this the [_refuted] theorems apply).  A session: some
    motions are queued and started, then in any order output records are asked for,
    motions appended, stops and starts requested.  There are legs, one per
    motion, each from rest to rest within the limits of the machine even when it is
    interrupted, and a clock that runs only while the machine moves, such that after
    every operation the step counters are where the legs say, within 0.55 step plus
    [creep] for every motion.  Whenever the controller is stopped the machine stands
    still.  When the queue is empty every path has been followed to its end. *)
Theorem C73_session_follows_partial : forall (M : machine xr) (r : rmach) (w fo : R) (N : nat),
  machine_is M r -> 0 < fo -> 0 < w -> (forall i, (i < 3)%nat -> tick_rate r w i + INR N * creep r w i <= 1) ->
  forall x0 c0 qs ops, session_ok M r w fo N x0 c0 qs ops ->
  exists c recs legs clk, c_run x_arith M c0 (session qs ops) = Ok (c, recs) /\
    map lg_path legs = map snd (qs ++ sappended ops) /\
    Forall2 (fun q l => leg_fine r (sm_vFeed (fst q)) fo l) (qs ++ sappended ops) legs /\
    motion_clock M w c0 qs ops clk /\ IZR (Z.of_N (scalcs ops)) * w <= elapsed w recs /\
    (forall p q, ops = p ++ q -> exists cp rp, c_run x_arith M c0 (session qs p) = Ok (cp, rp) /\
       within r (fun i => 55/100 + INR N * creep r w i) (where_at x0 legs (clk (length p))) cp /\
       (c_state cp = ms_stopped -> standing x0 legs (clk (length p)))) /\
    (c_level c <> 0%N -> clk (length ops) <= total legs) /\
    (c_level c = 0%N -> total legs < clk (length ops) /\ at_rest c w fo /\
       within r (fun i => 55/100 + INR N * creep r w i) (end_of x0 (map snd (qs ++ sappended ops))) c).
Proof. exact session_lemma. Qed.
Print Assumptions C73_session_follows_partial.

(** A stop takes effect in time: [y] is what it takes to brake from the speed at the
    request; one tick later at most the controller is stopped, with the
    interrupted motion still in its queue. *)
Theorem C73_stops_in_time_partial : forall (M : machine xr) (r : rmach) (w fo : R) (N : nat),
  machine_is M r -> 0 < fo -> 0 < w -> (forall i, (i < 3)%nat -> tick_rate r w i + INR N * creep r w i <= 1) ->
  forall x0 c0 qs p ops c1 r1 t y c recs, session_ok M r w fo N x0 c0 qs (p ++ SStop :: ops) -> Forall quiet ops ->
  c_run x_arith M c0 (session qs p) = Ok (c1, r1) -> st_time (c_st c1) = XF t -> stop_time (c_getHead x_arith c1) t y ->
  c_run x_arith M c0 (session qs (p ++ SStop :: ops)) = Ok (c, r1 ++ recs) -> y + w <= elapsed w recs ->
  c_state c = ms_stopped /\ c_level c <> 0%N.
Proof. exact stops_lemma. Qed.
Print Assumptions C73_stops_in_time_partial.

(** When there is room to stop: in a running session, at time [t] of a motion with feed
    [f], planned last at its time [b] (0, or where it was resumed): once it has had
    the time to gain full speed, and as long as more than the braking distance from
    full speed is left. *)
Theorem C73_room_to_stop : forall (M : machine xr) (r : rmach) (w fo : R) (N : nat),
  machine_is M r -> 0 < fo -> 0 < w -> (forall i, (i < 3)%nat -> tick_rate r w i + INR N * creep r w i <= 1) ->
  forall x0 c0 qs ops c recs, session_ok M r w fo N x0 c0 qs ops -> c_run x_arith M c0 (session qs ops) = Ok (c, recs) -> c_state c = ms_running ->
  exists done m P rest b t s, qs ++ sappended ops = done ++ (m, P) :: rest /\ c_level c = N.of_nat (S (length rest)) /\
    st_time (c_st c) = XF t /\ p_doneDuration (mo_prof (c_getHead x_arith c)) = XF b /\ 0 <= b <= t /\
    p_s x_num (mo_prof (c_getHead x_arith c)) (XF t) = XF s /\ 0 <= s <= pa_len P /\
    forall f V a d, sm_vFeed m = XF f -> limits_ok r P V a d -> s <= f * fo * t /\
      (b + (f * fo / a + a / rm_j r) < t -> f * fo / 2 * (f * fo / - d + - d / rm_j r) < pa_len P - s ->
       may_stop c /\ exists y, stop_time (c_getHead x_arith c) t y /\ y <= f * fo / - d + - d / rm_j r).
Proof. exact room_lemma. Qed.
Print Assumptions C73_room_to_stop.

(** From power-up, on the pins: the pulses a stepper driver sees add up to the
    step counter (a last step may still be due while motions are left), so they too
    follow the legs through stops and starts. *)
Theorem C73_pulses_follow_partial : forall (M : machine xr) (r : rmach) (w : R) (N : nat),
  machine_is M r -> 0 < w -> (forall i, (i < 3)%nat -> tick_rate r w i + INR N * creep r w i <= 1) ->
  forall m fo x0 qs ops, 0 < fo -> session_ok M r w fo N x0 (overridden (c_init x_arith m (XF w)) fo) qs ops ->
  exists c recs legs clk, c_run x_arith M (c_init x_arith m (XF w)) (OOverride (XF fo) :: session qs ops) = Ok (c, recs) /\
    map lg_path legs = map snd (qs ++ sappended ops) /\
    Forall2 (fun q l => leg_fine r (sm_vFeed (fst q)) fo l) (qs ++ sappended ops) legs /\
    motion_clock M w (overridden (c_init x_arith m (XF w)) fo) qs ops clk /\
    within r (fun i => 55/100 + INR N * creep r w i) (where_at x0 legs (clk (length ops))) c /\
    forall a, (a < 3)%nat -> calm r w N a -> exists pend, (length pend <= 1)%nat /\
      net_dirs (pulses (N.of_nat a) false (replay 0 recs) ++ pend) = nth a (c_pos c) 0%Z /\
      (c_level c = 0%N -> pend = []).
Proof. exact session_pulses. Qed.
Print Assumptions C73_pulses_follow_partial.

(** The 3-axis machine of the code: 2 m along X with feed 10 mm/s, stopped at full
    speed, and resumed once it has stopped. *)
Definition C73_m : smotion xr :=
  mkSM feedLinear (XF 2000) [XF 0; XF 0; XF 0] [XF 2000; XF 0; XF 0] 3 3 XN XN XN XN XN (XF 10) (XF 0) false false (XF 0) true.
Definition C73_P : path := mkPath 2000 (fun _ => 0) (fun i => if (i =? 0)%nat then 2000 else 0) None.
Notation C73_start := (overridden C64_power_up 1).
Notation C73_qs := [(C73_m, C73_P)].
Notation C73_ok := (session_ok C64_machine C64_limits C64_w 1 (100 * 300) (fun _ => 0) C73_start C73_qs).
Lemma C73_m_ok : executable C64_limits C73_m C73_P.
Proof.
  split; [reflexivity|]. split. { split; [reflexivity|]. split; [apply lt3; reflexivity|]. split; [apply lt3; reflexivity|]. split; reflexivity. }
  split. { split; [cbn; lra|]. cbn. unfold sq. lra. } split; [right; exists 10; split; [lra|reflexivity]|].
  intros i s Hi Hs. unfold in_range. cbn [C64_limits rm_k]. unfold path_pos, linear_pos. cbn [C73_P pa_arc pa_start pa_delta pa_len] in *.
  assert (B : 0 <= 0 + (if (i =? 0)%nat then 2000 else 0) * (s / 2000) <= 2000) by (apply C64_between; destruct (i =? 0)%nat; lra).
  rewrite Rabs_pos_eq; lra.
Qed.
Lemma C73_empty : C73_ok [].
Proof.
  split; [constructor; reflexivity|]. split; [reflexivity|]. split; [reflexivity|]. split; [discriminate|]. split; [cbn; lia|].
  split; [constructor; [exact C73_m_ok|constructor]|]. split; [apply Nat.leb_le; vm_compute; reflexivity|].
  split; [cbn [map snd chained sappended flat_map app]; split; [|exact I]; apply lt3; unfold path_pos, linear_pos; cbn; field|].
  split; [|intros p o rest c' recs E; destruct p; discriminate].
  intros i Hi. pose proof (C64_place i Hi) as K. exact K.
Qed.
Lemma C73_scalcs ops n : scalcs (ops ++ repeat SCalc n) = (scalcs ops + N.of_nat n)%N.
Proof.
  induction ops as [|o ops IH]; cbn [app].
  - induction n; [reflexivity|]. cbn [repeat scalcs] in *. lia.
  - destruct o; cbn [scalcs]; lia.
Qed.
Lemma C73_scalcs_app a b : scalcs (a ++ b) = (scalcs a + scalcs b)%N.
Proof. induction a as [|o a IH]; [reflexivity|]. destruct o; cbn [app scalcs]; lia. Qed.
Lemma C73_calcs n : forall ops, C73_ok ops -> (scalcs ops + N.of_nat n < 11000000)%N -> C73_ok (ops ++ repeat SCalc n).
Proof.
  destruct C64_machine_ok as (MI & RT & _).
  induction n as [|n IH]; intros ops OK HN; cbn [repeat]; [rewrite app_nil_r; auto|].
  change (SCalc :: repeat SCalc n) with ([SCalc] ++ repeat SCalc n). rewrite app_assoc. apply IH.
  - apply session_snoc; auto. intros c recs R.
    destruct (index_lemma C64_machine C64_limits C64_w 1 (100 * 300) MI ltac:(lra) ltac:(unfold C64_w; lra) RT _ _ _ _ _ _ OK R) as (I1 & I2 & _).
    cbn [allowed]. rewrite I2. change (sg_maxTicks (c_sig C73_start)) with 375%N in *. unfold two32. lia.
  - change [SCalc] with (repeat SCalc 1). rewrite C73_scalcs. lia.
Qed.
Lemma C73_sappended ops n : sappended (ops ++ repeat SCalc n) = sappended ops.
Proof. unfold sappended. rewrite flat_map_app. replace (flat_map _ (repeat SCalc n)) with (@nil (smotion xr * path)); [apply app_nil_r|]. induction n; auto. Qed.
Lemma C73_job n : job_ok C64_machine C64_limits C64_w 1 C73_start C73_qs (repeat RCalc n).
Proof.
  destruct (C64_appended n) as [_ AP]. constructor; rewrite ?AP.
  - discriminate.
  - cbn [length]. lia.
  - constructor; [apply C73_m_ok|constructor].
  - constructor; [|constructor]. apply brief_lemma with (v := 10).
    + split; [lra|]. split; [intros; cbn; lra|]. split; [discriminate|]. split; [intros x [= <-]; lra|]. intros; cbn. lra.
    + unfold C64_w. cbn. lra.
  - intros p m P rest c' recs E H. exfalso. eapply C64_no_append; eauto.
Qed.
Lemma C73_is_job n : session C73_qs (repeat SCalc n) = job C73_qs (repeat RCalc n).
Proof. unfold session, job. rewrite <- app_assoc. cbn [app map]. do 2 f_equal. induction n; [reflexivity|]. cbn. f_equal. auto. Qed.
(** For 150 seconds it is on its way. *)
Lemma C73_running n c recs : (N.of_nat n <= 25000)%N -> c_run x_arith C64_machine C73_start (session C73_qs (repeat SCalc n)) = Ok (c, recs) ->
  c_state c = ms_running /\ IZR (Z.of_N (N.of_nat n)) * C64_w <= elapsed C64_w recs <= 157.
Proof.
  intros HN R. destruct C64_machine_ok as (MI & RT & _).
  pose proof (C73_calcs n [] C73_empty ltac:(cbn [scalcs]; lia)) as OK. cbn [app] in OK.
  destruct (index_lemma C64_machine C64_limits C64_w 1 (100 * 300) MI ltac:(lra) ltac:(unfold C64_w; lra) RT _ _ _ _ _ _ OK R) as (_ & _ & I1).
  pose proof (C73_scalcs [] n) as SC. cbn [app scalcs] in SC. rewrite SC in I1. change (sg_maxTicks (c_sig C73_start)) with 375%N in I1.
  assert (EL : IZR (Z.of_N (N.of_nat n)) * C64_w <= elapsed C64_w recs <= 157).
  { unfold elapsed, C64_w. split; [apply Rmult_le_compat_r; [lra|apply IZR_le; lia]|].
    assert (IZR (Z.of_N (sum_times recs)) <= IZR 9375000) by (apply IZR_le; lia). lra. }
  split; auto. rewrite C73_is_job in R. destruct (C64_appended n) as [_ AP].
  destruct (C64_run_follows C64_machine C64_limits C64_w 1 (100 * 300) MI ltac:(lra) ltac:(unfold C64_w; lra) RT C73_start (fun _ => 0) 0
      C73_qs (repeat RCalc n) ltac:(constructor; reflexivity) eq_refl ltac:(reflexivity) (C73_job n)) as (c1 & r1 & legs & R1 & LP & F2 & _ & ER & _).
  { rewrite AP. apply Nat.leb_le. vm_compute. reflexivity. }
  { rewrite AP. cbn [map snd chained app]. split; [|exact I]. apply lt3; unfold path_pos, linear_pos; cbn; field. }
  { intros i Hi. pose proof (C64_place i Hi) as K. cbn [INR]. cbv beta in K. rewrite Rmult_0_l, Rplus_0_r. exact K. }
  rewrite R in R1. injection R1 as <- <-. apply ER. rewrite AP, app_nil_r in F2, LP. inversion F2 as [|? l ? ? F1 F3]; subst. inversion F3; subst.
  injection LP as LP. destruct F1 as (_ & _ & V & a & d & vm & v & acc & LO & VM & FE & PS & _). rewrite LP in PS. cbn [C73_P pa_len fst C73_m sm_vFeed] in *.
  specialize (FE 10 eq_refl). unfold total. cbn [map rsum fold_right].
  pose proof (ps_time _ _ _ _ _ _ _ _ _ _ _ _ PS) as TT. destruct (ps_start _ _ _ _ _ _ _ _ _ _ _ _ PS) as [S0 _]. destruct (ps_end _ _ _ _ _ _ _ _ _ _ _ _ PS) as [S1 _].
  assert (K : 0 * (lg_T l - 0) <= lg_s l (lg_T l) - lg_s l 0 <= vm * (lg_T l - 0)).
  { apply (lip (lg_s l) v vm 0 0 (lg_T l)); try lra.
    - intros z Hz. apply (ps_speed _ _ _ _ _ _ _ _ _ _ _ _ PS). lra.
    - intros z Hz. apply (ps_scont _ _ _ _ _ _ _ _ _ _ _ _ PS). lra.
    - intros z Hz. apply (ps_vbound _ _ _ _ _ _ _ _ _ _ _ _ PS). lra. }
  assert (vm * lg_T l <= 10 * lg_T l) by (apply Rmult_le_compat_r; lra). lra.
Qed.
Lemma C73_limits V a d : limits_ok C64_limits C73_P V a d -> a = 200 /\ d = -200.
Proof.
  intro L. destruct C64_machine_ok as (MI & _).
  assert (SH : forall i, Rabs (share C73_P i) = if (i =? 0)%nat then 1 else 0).
  { intro i. unfold share, on_arc. cbn [C73_P pa_arc pa_delta pa_len]. destruct (i =? 0)%nat; cbn.
    - replace (2000 / 2000) with 1 by field. apply Rabs_R1.
    - replace (0 / 2000) with 0 by field. apply Rabs_R0. }
  destruct (lo_pos _ _ _ _ _ L) as (_ & AP & DN).
  destruct (lo_amax _ _ _ _ _ L) as (i & Hi & E). destruct (lo_dmax _ _ _ _ _ L) as (k & Hk & F). rewrite SH in E, F. cbn [C64_limits rm_a rm_d] in E, F.
  destruct (i =? 0)%nat, (k =? 0)%nat; lra.
Qed.
Lemma C73_done o fo st : p_doneDuration (mo_prof (mo_optimize x_arith C64_machine o fo st)) = p_doneDuration (mo_prof o).
Proof. unfold mo_optimize. destruct (is_move (mo_type o)); [|reflexivity]. cbn [mo_prof]. unfold p_optimize. destruct (p_plan _ _ _ _ _ _). cbn [p_doneDuration]. destruct (nltb _ _ _); reflexivity. Qed.
Lemma C73_planned n c recs : c_run x_arith C64_machine C73_start (session C73_qs (repeat SCalc n)) = Ok (c, recs) ->
  p_doneDuration (mo_prof (c_getHead x_arith c)) = XF 0.
Proof.
  unfold session. intro R. destruct (run_cut _ _ _ _ _ _ R) as (c1 & r1 & r2 & R1 & R2 & _).
  assert (F : Forall (fun o => p_doneDuration (mo_prof o) = XF 0) (c_items c1)).
  { cbn [job map app fst c_run c_step rbind] in R1. injection R1 as <- _.
    unfold c_start. change (c_isEmpty (c_append x_arith C64_machine C73_start C73_m)) with false. cbn [negb]. unfold c_optimize.
    change (c_level _ =? 0)%N with false. change (c_level _ =? 1)%N with true. cbv iota. unfold c_set_item at 1. cbn [c_with_items c_items].
    unfold rset. apply Forall_upd.
    - change (c_items (c_with_state _ _)) with (upd (repeat (mo_zero x_arith) 32) 0 (mo_set x_arith C64_machine (mo_zero x_arith) C73_m (XF 1) minimizeSpeed)).
      apply Forall_upd; [repeat constructor|]. unfold mo_set. cbn [sm_type C73_m is_move mo_prof]. rewrite C73_done.
      cbn [mo_prof]. unfold prof_setSpeed. destruct (limits x_arith C64_machine _) as [[u1 u2] u3]. reflexivity.
    - unfold mo_optimize_at. rewrite C73_done. reflexivity. }
  assert (G : Forall (fun o => p_doneDuration (mo_prof o) = XF 0) (c_items c)).
  { clear R R1 recs r1. revert c1 c r2 R2 F. induction n as [|n IH]; intros c1 c r2 R2 F; cbn [repeat map c_run] in R2; [injection R2 as <- _; auto|].
    unfold rbind in R2. cbn [sop_op c_step] in R2. unfold rbind in R2.
    destruct (c_calc x_arith C64_machine _ c1) as [[[d s]|]|] eqn:C; [|discriminate|discriminate]. apply calc_items in C.
    destruct (c_run x_arith C64_machine d (map sop_op (repeat SCalc n))) as [[e t]|] eqn:E; [|discriminate]. injection R2 as <- _. apply (IH d e t E). rewrite C. auto. }
  unfold c_getHead, item, rget. destruct (nth_in_or_default (N.to_nat (c_head c)) (c_items c) (mo_zero x_arith)) as [I|D].
  - eapply Forall_forall in G; eauto.
  - rewrite D. reflexivity.
Qed.
(** The whole session. *)
Definition C73_ops (n1 n2 n3 : nat) : list sop := repeat SCalc n1 ++ SStop :: repeat SCalc n2 ++ SStart :: repeat SCalc n3.
Example C73_session_case : forall n1 n2 n3, (24000 <= N.of_nat n1 <= 25000)%N -> (24000 <= N.of_nat n2 <= 25000)%N -> (N.of_nat n3 <= 1000000)%N ->
  machine_is C64_machine C64_limits /\ (forall i, (i < 3)%nat -> tick_rate C64_limits C64_w i + INR (100 * 300) * creep C64_limits C64_w i <= 1) /\
  C73_ok (C73_ops n1 n2 n3) /\
  exists c1 r1 t y c recs, c_run x_arith C64_machine C73_start (session C73_qs (repeat SCalc n1)) = Ok (c1, r1) /\ c_state c1 = ms_running /\
    st_time (c_st c1) = XF t /\ stop_time (c_getHead x_arith c1) t y /\
    c_run x_arith C64_machine C73_start (session C73_qs (repeat SCalc n1 ++ SStop :: repeat SCalc n2)) = Ok (c, r1 ++ recs) /\ y + C64_w <= elapsed C64_w recs.
Proof.
  intros n1 n2 n3 H1 H2 H3. destruct C64_machine_ok as (MI & RT & _). split; [exact MI|]. split; [exact RT|].
  assert (FO : 0 < 1) by lra. assert (WP : 0 < C64_w) by (unfold C64_w; lra).
  pose proof (C73_calcs n1 [] C73_empty ltac:(cbn [scalcs]; lia)) as OK1. cbn [app] in OK1.
  destruct (C73_session_follows_partial C64_machine C64_limits C64_w 1 (100 * 300) MI FO WP RT _ _ _ _ OK1) as (c1 & r1 & legs & _ & R1 & LP & F2 & _). pose proof (C73_sappended [] n1) as SA. cbn [app] in SA. rewrite SA in F2, LP. cbn [sappended flat_map app map snd] in F2, LP.
  destruct (C73_running n1 c1 r1 ltac:(lia) R1) as [ST1 EL1].
  assert (TM : st_time (c_st c1) = XF (elapsed C64_w r1)).
  { apply (single_time C64_machine C64_limits C64_w 1 (100 * 300) MI FO WP RT (fun _ => 0) C73_start (C73_m, C73_P) (repeat SCalc n1)); auto.
    intros p q c' r' E R'. assert (EP : p = repeat SCalc (length p)) by (apply Forall_eq_repeat; apply Forall_forall; intros z Hz; symmetry; apply (repeat_spec n1 SCalc); rewrite E; apply in_or_app; auto).
      rewrite EP in R'. apply (C73_running (length p) c' r'); auto. assert (length (repeat SCalc n1) = length (p ++ q)) by congruence. rewrite repeat_length, app_length in H. lia. }
  destruct (C73_room_to_stop C64_machine C64_limits C64_w 1 (100 * 300) MI FO WP RT _ _ _ _ _ _ OK1 R1 ST1) as (done & m & P & rest & b & t & s & E1 & E2 & E3 & E4 & _ & _ & _ & K).
  rewrite SA in E1. cbn [app sappended flat_map] in E1.
  assert (EQ : m = C73_m /\ P = C73_P). { destruct done as [|x [|? ?]]; try discriminate. injection E1 as E1 E5 _. auto. } destruct EQ as [-> ->].
  rewrite (C73_planned n1 c1 r1 R1) in E4. injection E4 as <-. rewrite TM in E3. injection E3 as <-.
  assert (LO : exists V a d, limits_ok C64_limits C73_P V a d) by (destruct F2 as [|? l ? ? F2 _]; [discriminate|]; destruct F2 as (_ & _ & V & a & d & vm & v & acc & LO & _); injection LP as LP; rewrite LP in LO; eauto).
  destruct LO as (V & a & d & LO). destruct (C73_limits V a d LO) as [-> ->]. destruct (K 10 V 200 (-200) eq_refl LO) as (SB & MS).
  assert (TL : 0.4 <= elapsed C64_w r1 <= 157).
  { assert (IZR 24000 <= IZR (Z.of_N (N.of_nat n1))) by (apply IZR_le; lia). split; [|lra]. apply Rle_trans with (IZR (Z.of_N (N.of_nat n1)) * C64_w); [|lra]. unfold C64_w. lra. }
  replace (- -200) with 200 in MS by lra.
  destruct MS as (MS & y & SY & YB). { cbn [C64_limits rm_j]. lra. } { cbn [C64_limits rm_j C73_P pa_len]. lra. }
  cbn [C64_limits rm_j] in YB.
  pose proof (C73_scalcs [] n1) as SCN1. pose proof (C73_scalcs [] n2) as SCN2. cbn [app scalcs] in SCN1, SCN2. rewrite N.add_0_l in SCN1, SCN2.
  assert (OK2 : C73_ok (repeat SCalc n1 ++ [SStop])).
  { apply session_snoc; auto. intros c' r' R'. rewrite R1 in R'. injection R' as <- <-. exact MS. }
  assert (OK3 : C73_ok (repeat SCalc n1 ++ SStop :: repeat SCalc n2)).
  { change (SStop :: repeat SCalc n2) with ([SStop] ++ repeat SCalc n2). rewrite app_assoc. apply C73_calcs; auto. rewrite C73_scalcs_app, SCN1. cbn [scalcs]. lia. }
  destruct (C73_session_follows_partial C64_machine C64_limits C64_w 1 (100 * 300) MI FO WP RT _ _ _ _ OK3) as (c & rr & _ & _ & R2 & _).
  assert (CUT : exists recs, rr = r1 ++ recs /\ y + C64_w <= elapsed C64_w recs).
  { pose proof R2 as R3. unfold session in R3. rewrite map_app, app_assoc in R3. destruct (run_cut _ _ _ _ _ _ R3) as (c1' & ra & recs & R4 & _ & ->).
    fold (session C73_qs (repeat SCalc n1)) in R4. rewrite R1 in R4. injection R4 as <- <-. exists recs. split; auto.
    pose proof (rest_lemma C64_machine C64_limits C64_w 1 (100 * 300) MI FO WP RT _ _ _ _ _ _ _ _ _ OK3 R1 R2) as K2.
    cbn [scalcs] in K2. rewrite SCN2 in K2. unfold C64_w in *. assert (IZR 24000 <= IZR (Z.of_N (N.of_nat n2))) by (apply IZR_le; lia). lra. }
  destruct CUT as (recs & -> & YE).
  split.
  2:{ exists c1, r1, (elapsed C64_w r1), y, c, recs. auto 10. }
  assert (OK4 : C73_ok ((repeat SCalc n1 ++ SStop :: repeat SCalc n2) ++ [SStart])).
  { apply session_snoc; auto. intros c' r' R'. rewrite R2 in R'. injection R' as <- <-. cbn [allowed].
    destruct (C73_stops_in_time_partial C64_machine C64_limits C64_w 1 (100 * 300) MI FO WP RT _ _ _ _ _ _ _ _ _ _ _ OK3 ltac:(apply Forall_forall; intros z Hz; rewrite (repeat_spec _ _ _ Hz); exact I) R1 TM SY R2 YE) as [K1 K2].
    auto. }
  unfold C73_ops. replace (repeat SCalc n1 ++ SStop :: repeat SCalc n2 ++ SStart :: repeat SCalc n3) with (((repeat SCalc n1 ++ SStop :: repeat SCalc n2) ++ [SStart]) ++ repeat SCalc n3).
  2:{ rewrite <- !app_assoc. reflexivity. }
  apply C73_calcs; auto. rewrite !C73_scalcs_app. cbn [scalcs]. rewrite SCN1, SCN2. lia.
Qed.
