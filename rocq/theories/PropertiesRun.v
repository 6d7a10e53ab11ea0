(** Properties of whole runs: C64. *)
Require Import List Arith NArith ZArith Bool Reals Lra Lia.
From Verif Require Import Base EventModel StepModel StepSpec Num NumR MotionModel CtrlModel CtrlSpec CtrlRSpec ProfileSpec GeomSpec GeomProofs RunSpec RunProofs RunBriefProofs.
Import ListNotations.
Open Scope R_scope.

(** C64.  Exact arithmetic.  From a controller at rest: queue some motions, start,
    and keep asking for output records while the host appends more.  There are
    legs, one per motion, each a proper execution of it, such that at every moment
    the step counters are where the sequence of legs says, within 0.55 step plus
    [creep] for every motion ([n] were executed earlier).  The run is announced
    properly, and once the time of all the legs has passed the controller is at rest
    again at the end of the last path, ready for the next run. *)
Theorem C64_run_follows : forall (M : machine xr) (r : rmach) (w fo : R) (N : nat),
  machine_is M r -> 0 < fo -> 0 < w -> (forall i, (i < 3)%nat -> tick_rate r w i + INR N * creep r w i <= 1) ->
  forall c0 x0 n qs ops, at_rest c0 w fo -> sg_ticks (c_sig c0) = 0%N -> (sg_maxTicks (c_sig c0) < two32)%N ->
  job_ok M r w fo c0 qs ops -> (n + length (qs ++ appended ops) <= N)%nat -> chained x0 (map snd (qs ++ appended ops)) ->
  within r (fun i => 55/100 + INR n * creep r w i) x0 c0 ->
  exists c recs legs, c_run x_arith M c0 (job qs ops) = Ok (c, recs) /\
    map lg_path legs = map snd (qs ++ appended ops) /\
    Forall2 (fun q l => leg_ok r (sm_vFeed (fst q)) fo l) (qs ++ appended ops) legs /\
    IZR (Z.of_N (calcs ops)) * w <= elapsed w recs /\
    (elapsed w recs <= total legs -> c_state c = ms_running /\
       c_events c = c_events c0 ++ motionStarted :: repeat motionCompleted (finished legs (elapsed w recs))) /\
    (total legs < elapsed w recs -> at_rest c w fo /\ sg_ticks (c_sig c) = 0%N /\ sg_maxTicks (c_sig c) = sg_maxTicks (c_sig c0) /\
       c_events c = c_events c0 ++ motionStarted :: repeat motionCompleted (length legs - 1) ++ [motionStopped; motionCompleted; allMotionsCompleted] /\
       within r (fun i => 55/100 + INR (n + length (qs ++ appended ops)) * creep r w i) (end_of x0 (map snd (qs ++ appended ops))) c) /\
    (forall p q, ops = p ++ q -> exists cp rp, c_run x_arith M c0 (job qs p) = Ok (cp, rp) /\
       within r (fun i => 55/100 + INR N * creep r w i) (where_at x0 legs (elapsed w rp)) cp).
Proof. exact job_lemma. Qed.
Print Assumptions C64_run_follows.

(** From power-up, on the pins, after any number of completed jobs [js]: the pulses a
    stepper driver sees in all the output records add up to the step counter (a
    last step may still be due while running), so they too follow the path. *)
Theorem C64_pulses_follow : forall (M : machine xr) (r : rmach) (w : R) (N : nat),
  machine_is M r -> 0 < w -> (forall i, (i < 3)%nat -> tick_rate r w i + INR N * creep r w i <= 1) ->
  forall m x0 js c1 r1 fo qs ops, (m < two32)%N -> jobs_done M r w (c_init x_arith m (XF w)) js c1 r1 ->
  0 < fo -> job_ok M r w fo (overridden c1 fo) qs ops ->
  let all := motions (js ++ [(fo, qs, ops)]) in
  (length all <= N)%nat -> chained x0 (map snd all) -> within r (fun _ => 55/100) x0 (c_init x_arith m (XF w)) ->
  exists c recs legs, c_run x_arith M (c_init x_arith m (XF w)) (jobs_ops (js ++ [(fo, qs, ops)])) = Ok (c, r1 ++ recs) /\
    map lg_path legs = map snd (qs ++ appended ops) /\
    Forall2 (fun q l => leg_ok r (sm_vFeed (fst q)) fo l) (qs ++ appended ops) legs /\
    IZR (Z.of_N (calcs ops)) * w <= elapsed w recs /\
    within r (fun i => 55/100 + INR N * creep r w i) (where_at (end_of x0 (map snd (motions js))) legs (elapsed w recs)) c /\
    (elapsed w recs <= total legs -> c_state c = ms_running) /\
    (total legs < elapsed w recs -> at_rest c w fo /\ within r (fun i => 55/100 + INR N * creep r w i) (end_of x0 (map snd all)) c) /\
    forall a, (a < 3)%nat -> calm r w N a -> exists pend, (length pend <= 1)%nat /\
      net_dirs (pulses (N.of_nat a) false (replay 0 (r1 ++ recs)) ++ pend) = nth a (c_pos c) 0%Z /\
      (total legs < elapsed w recs -> pend = []).
Proof. exact job_pulses. Qed.
Print Assumptions C64_pulses_follow.

(** A target on the step grid is met exactly, however many jobs went before. *)
Theorem C64_lands_exactly : forall (M : machine xr) (r : rmach) (w : R) (N : nat),
  machine_is M r -> 0 < w -> (forall i, (i < 3)%nat -> tick_rate r w i + INR N * creep r w i <= 1) ->
  forall m x0 js c1 r1 fo qs ops a z, (m < two32)%N -> jobs_done M r w (c_init x_arith m (XF w)) js c1 r1 ->
  0 < fo -> job_ok M r w fo (overridden c1 fo) qs ops ->
  let all := motions (js ++ [(fo, qs, ops)]) in
  (length all <= N)%nat -> chained x0 (map snd all) -> within r (fun _ => 55/100) x0 (c_init x_arith m (XF w)) ->
  (a < 3)%nat -> calm r w N a -> INR N * creep r w a <= 4/10 -> rm_k r a * end_of x0 (map snd all) a = IZR z ->
  exists c recs legs, c_run x_arith M (c_init x_arith m (XF w)) (jobs_ops (js ++ [(fo, qs, ops)])) = Ok (c, r1 ++ recs) /\
    map lg_path legs = map snd (qs ++ appended ops) /\
    Forall2 (fun q l => leg_ok r (sm_vFeed (fst q)) fo l) (qs ++ appended ops) legs /\
    IZR (Z.of_N (calcs ops)) * w <= elapsed w recs /\
    (total legs < elapsed w recs -> nth a (c_pos c) 0%Z = z /\ net_dirs (pulses (N.of_nat a) false (replay 0 (r1 ++ recs))) = z).
Proof. exact job_lands. Qed.
Print Assumptions C64_lands_exactly.

(** The 3-axis machine of the code.  First job: a traverse of 10 mm along X, then 5 mm
    along Y with feed 10 mm/s, appended while running.  Second job, with an override of
    one half: 10 mm back along X with feed 20 mm/s.  Up to 30000 motions are allowed
    for. *)
Definition C64_machine : machine xr :=
  mkMachine (XF 600) [XF 200; XF 200; XF 200] [XF (-200); XF (-200); XF (-200)] [XF 30; XF 30; XF 30] [XF 200; XF 200; XF 200] (XF 0).
Definition C64_limits : rmach := mkRM (fun _ => 30) (fun _ => 200) (fun _ => -200) (fun _ => 200) 600.
Definition C64_m1 : smotion xr :=
  mkSM traverse (XF 10) [XF 0; XF 0; XF 0] [XF 10; XF 0; XF 0] 3 3 XN XN XN XN XN XP (XF 0) false false (XF 0) true.
Definition C64_P1 : path := mkPath 10 (fun _ => 0) (fun i => if (i =? 0)%nat then 10 else 0) None.
Definition C64_m2 : smotion xr :=
  mkSM feedLinear (XF 5) [XF 10; XF 0; XF 0] [XF 0; XF 5; XF 0] 3 3 XN XN XN XN XN (XF 10) (XF 0) false false (XF 0) true.
Definition C64_P2 : path := mkPath 5 (fun i => if (i =? 0)%nat then 10 else 0) (fun i => if (i =? 1)%nat then 5 else 0) None.
Definition C64_m3 : smotion xr :=
  mkSM feedLinear (XF 10) [XF 10; XF 5; XF 0] [XF (-10); XF 0; XF 0] 3 3 XN XN XN XN XN (XF 20) (XF 0) false false (XF 0) true.
Definition C64_P3 : path := mkPath 10 (fun i => match i with 0%nat => 10 | 1%nat => 5 | _ => 0 end) (fun i => if (i =? 0)%nat then -10 else 0) None.
Definition C64_ops (n : nat) : list rop := RAppend C64_m2 C64_P2 :: repeat RCalc n.
Definition C64_w : R := 1/60000.
Notation C64_power_up := (c_init x_arith 375 (XF C64_w)).

Lemma C64_between a b s L lo hi : 0 <= s <= L -> 0 < L -> lo <= a <= hi -> lo <= a + b <= hi -> lo <= a + b * (s / L) <= hi.
Proof.
  intros Hs HL H1 H2. assert (U : 0 <= s / L <= 1).
  { split; [apply Rmult_le_pos; [lra|apply Rlt_le, Rinv_0_lt_compat; auto]|]. apply Rmult_le_reg_r with L; auto. replace (s / L * L) with s by (field; lra). lra. }
  set (u := s / L) in *. replace (a + b * u) with ((1 - u) * a + u * (a + b)) by ring.
  assert (0 <= (1 - u) * (a - lo)) by (apply Rmult_le_pos; lra). assert (0 <= u * (a + b - lo)) by (apply Rmult_le_pos; lra).
  assert (0 <= (1 - u) * (hi - a)) by (apply Rmult_le_pos; lra). assert (0 <= u * (hi - (a + b))) by (apply Rmult_le_pos; lra). lra.
Qed.
Lemma C64_m1_ok : executable C64_limits C64_m1 C64_P1.
Proof.
  split; [reflexivity|]. split. { split; [reflexivity|]. split; [apply lt3; reflexivity|]. split; [apply lt3; reflexivity|]. split; reflexivity. }
  split. { split; [cbn; lra|]. cbn. unfold sq. lra. } split; [left; reflexivity|].
  intros i s Hi Hs. unfold in_range. cbn [C64_limits rm_k]. unfold path_pos, linear_pos. cbn [C64_P1 pa_arc pa_start pa_delta pa_len] in *.
  assert (B : 0 <= 0 + (if (i =? 0)%nat then 10 else 0) * (s / 10) <= 10) by (apply C64_between; destruct (i =? 0)%nat; lra).
  rewrite Rabs_pos_eq; lra.
Qed.
Lemma C64_m2_ok : executable C64_limits C64_m2 C64_P2.
Proof.
  split; [reflexivity|]. split. { split; [reflexivity|]. split; [apply lt3; reflexivity|]. split; [apply lt3; reflexivity|]. split; reflexivity. }
  split. { split; [cbn; lra|]. cbn. unfold sq. lra. } split; [right; exists 10; split; [lra|reflexivity]|].
  intros i s Hi Hs. unfold in_range. cbn [C64_limits rm_k]. unfold path_pos, linear_pos. cbn [C64_P2 pa_arc pa_start pa_delta pa_len] in *.
  assert (B : 0 <= (if (i =? 0)%nat then 10 else 0) + (if (i =? 1)%nat then 5 else 0) * (s / 5) <= 10)
    by (apply C64_between; destruct i as [|[|i]]; cbn [Nat.eqb]; lra).
  rewrite Rabs_pos_eq; lra.
Qed.
Lemma C64_m3_ok : executable C64_limits C64_m3 C64_P3.
Proof.
  split; [reflexivity|]. split. { split; [reflexivity|]. split; [apply lt3; reflexivity|]. split; [apply lt3; reflexivity|]. split; reflexivity. }
  split. { split; [cbn; lra|]. cbn. unfold sq. lra. } split; [right; exists 20; split; [lra|reflexivity]|].
  intros i s Hi Hs. unfold in_range. cbn [C64_limits rm_k]. unfold path_pos, linear_pos. cbn [C64_P3 pa_arc pa_start pa_delta pa_len] in *.
  assert (B : 0 <= (match i with 0%nat => 10 | 1%nat => 5 | _ => 0 end) + (if (i =? 0)%nat then -10 else 0) * (s / 10) <= 10)
    by (apply C64_between; destruct i as [|[|i]]; cbn [Nat.eqb]; lra).
  rewrite Rabs_pos_eq; lra.
Qed.
Lemma C64_sure1 : sure C64_limits (sm_vFeed C64_m1) 1 C64_P1 30.
Proof. split; [lra|]. split; [intros; cbn; lra|]. split; [discriminate|]. split; [discriminate|]. intros; cbn. lra. Qed.
Lemma C64_sure2 : sure C64_limits (sm_vFeed C64_m2) 1 C64_P2 10.
Proof. split; [lra|]. split; [intros; cbn; lra|]. split; [discriminate|]. split; [intros x [= <-]; lra|]. intros; cbn. lra. Qed.
Lemma C64_sure3 : sure C64_limits (sm_vFeed C64_m3) (1/2) C64_P3 10.
Proof. split; [lra|]. split; [intros; cbn; lra|]. split; [discriminate|]. split; [intros x [= <-]; lra|]. intros; cbn. lra. Qed.
Lemma C64_appended k : appended (C64_ops k) = [(C64_m2, C64_P2)] /\ appended (repeat RCalc k) = [].
Proof.
  assert (K : forall k, appended (repeat RCalc k) = []) by (clear; induction k; auto). split; [|apply K].
  unfold C64_ops. cbn [appended flat_map app]. fold (appended (repeat RCalc k)). rewrite K. reflexivity.
Qed.
Lemma C64_no_append (n : nat) p m P rest : repeat RCalc n = p ++ RAppend m P :: rest -> False.
Proof.
  intro E. assert (IN : In (RAppend m P) (repeat RCalc n)) by (rewrite E; apply in_or_app; right; left; reflexivity).
  apply repeat_spec in IN. discriminate.
Qed.
Lemma C64_job1 k : job_ok C64_machine C64_limits C64_w 1 (overridden C64_power_up 1) [(C64_m1, C64_P1)] (C64_ops k).
Proof.
  destruct (C64_appended k) as [AP _]. constructor; rewrite ?AP.
  - discriminate.
  - cbn [length]. lia.
  - constructor; [apply C64_m1_ok|constructor; [apply C64_m2_ok|constructor]].
  - constructor; [|constructor; [|constructor]].
    + eapply brief_lemma; [exact C64_sure1|]. unfold C64_w. cbn. lra.
    + eapply brief_lemma; [exact C64_sure2|]. unfold C64_w. cbn. lra.
  - intros p m P rest c' recs E H. destruct p as [|o p].
    + cbn [map] in H. rewrite app_nil_r in H. unfold job in H. cbn [map app fst rop_op c_run c_step rbind] in H. injection H as <- _.
      split; reflexivity.
    + exfalso. inversion E as [[E1 E2]]. eapply C64_no_append; eauto.
Qed.
Lemma C64_job2 c n : job_ok C64_machine C64_limits C64_w (1/2) c [(C64_m3, C64_P3)] (repeat RCalc n).
Proof.
  destruct (C64_appended n) as [_ AP]. constructor; rewrite ?AP.
  - discriminate.
  - cbn [length]. lia.
  - constructor; [apply C64_m3_ok|constructor].
  - constructor; [|constructor]. eapply brief_lemma; [exact C64_sure3|]. unfold C64_w. cbn. lra.
  - intros p m P rest c' recs E H. exfalso. eapply C64_no_append; eauto.
Qed.
Lemma C64_machine_ok : machine_is C64_machine C64_limits /\
  (forall i, (i < 3)%nat -> tick_rate C64_limits C64_w i + INR (100 * 300) * creep C64_limits C64_w i <= 1) /\
  (forall i, (i < 3)%nat -> calm C64_limits C64_w (100 * 300) i /\ INR (100 * 300) * creep C64_limits C64_w i <= 4/10).
Proof.
  assert (KC : INR (100 * 300) * (200 * - -200 * (1 / 60000 * (1 / 60000))) = 1/3) by (rewrite INR_IZR_INZ; replace (Z.of_nat (100 * 300)) with 30000%Z by (vm_compute; reflexivity); field).
  split; [|split].
  - split; [reflexivity|]. split; [cbn; lra|]. apply lt3; cbn; repeat split; lra.
  - intros i _. unfold tick_rate, creep. cbn [C64_limits rm_k rm_v rm_d]. unfold C64_w. rewrite KC. lra.
  - intros i _. unfold calm, tick_rate, creep. cbn [C64_limits rm_k rm_v rm_d]. unfold C64_w. rewrite KC. lra.
Qed.
Lemma C64_place : within C64_limits (fun _ => 55/100) (fun _ => 0) C64_power_up.
Proof.
  intros i Hi. replace (nth i (c_pos C64_power_up) 0%Z) with 0%Z.
  - rewrite Rmult_0_r, Rminus_0_r, Rabs_R0. lra.
  - revert i Hi. apply lt3; reflexivity.
Qed.
Lemma C64_chain1 : chained (fun _ => 0) (map snd [(C64_m1, C64_P1); (C64_m2, C64_P2)]).
Proof. cbn [map snd chained]. split; [|split; [|exact I]]; apply lt3; unfold path_pos, linear_pos; cbn; field. Qed.
(** The first job comes to its end. *)
Lemma C64_first k : (200000 <= N.of_nat k)%N -> exists c1 r1, jobs_done C64_machine C64_limits C64_w C64_power_up [(1, [(C64_m1, C64_P1)], C64_ops k)] c1 r1.
Proof.
  intro HK. destruct C64_machine_ok as (MI & RT & _). destruct (C64_appended k) as [AP _].
  assert (RE : at_rest (overridden C64_power_up 1) C64_w 1) by (constructor; reflexivity).
  destruct (C64_run_follows C64_machine C64_limits C64_w 1 (100 * 300) MI ltac:(lra) ltac:(unfold C64_w; lra) RT (overridden C64_power_up 1) (fun _ => 0) 0
      [(C64_m1, C64_P1)] (C64_ops k) RE eq_refl ltac:(reflexivity) (C64_job1 k)) as (c1 & r1 & legs & R & LP & F2 & EL & _ & ED & _).
  { rewrite AP. apply Nat.leb_le. vm_compute. reflexivity. } { rewrite AP. exact C64_chain1. }
  { intros i Hi. pose proof (C64_place i Hi) as K. cbn [INR]. cbv beta in K. rewrite Rmult_0_l, Rplus_0_r. exact K. }
  exists c1, (r1 ++ []). apply jobs_next with c1; [lra|apply C64_job1|rewrite run_override; exact R| |constructor].
  assert (CL : calcs (C64_ops k) = N.of_nat k).
  { clear. unfold C64_ops. cbn [calcs]. induction k; [reflexivity|]. cbn [repeat calcs]. rewrite IHk. lia. }
  rewrite CL in EL. rewrite AP in F2, LP. cbn [app] in F2, LP. inversion F2 as [|? l1 ? ls F1 F3]; subst. inversion F3 as [|? l2 ? ls' F4 F5]; subst. inversion F5; subst. clear F5 F3 F2.
  cbn [map snd] in LP. injection LP as LP1 LP2. cbn [fst snd] in F1, F4.
  pose proof (leg_time _ _ _ l1 30 ltac:(rewrite LP1; exact C64_sure1) F1) as T1. pose proof (leg_time _ _ _ l2 10 ltac:(rewrite LP2; exact C64_sure2) F4) as T2.
  rewrite LP1 in T1. rewrite LP2 in T2. cbn in T1, T2.
  apply ED. unfold total. cbn [map rsum fold_right]. apply Rlt_le_trans with (IZR (Z.of_N (N.of_nat k)) * C64_w); [|exact EL].
  assert (K : IZR 200000 <= IZR (Z.of_N (N.of_nat k))) by (apply IZR_le; lia). unfold C64_w. lra.
Qed.
Example C64_hypotheses : forall k n, (200000 <= N.of_nat k)%N ->
  let js := [(1, [(C64_m1, C64_P1)], C64_ops k)] in
  let all := motions (js ++ [(1/2, [(C64_m3, C64_P3)], repeat RCalc n)]) in
  machine_is C64_machine C64_limits /\
  (forall i, (i < 3)%nat -> tick_rate C64_limits C64_w i + INR (100 * 300) * creep C64_limits C64_w i <= 1) /\
  (forall i, (i < 3)%nat -> calm C64_limits C64_w (100 * 300) i /\ INR (100 * 300) * creep C64_limits C64_w i <= 4/10) /\
  (exists c1 r1, jobs_done C64_machine C64_limits C64_w C64_power_up js c1 r1 /\
     job_ok C64_machine C64_limits C64_w (1/2) (overridden c1 (1/2)) [(C64_m3, C64_P3)] (repeat RCalc n)) /\
  (length all <= 100 * 300)%nat /\ chained (fun _ => 0) (map snd all) /\ within C64_limits (fun _ => 55/100) (fun _ => 0) C64_power_up /\
  rm_k C64_limits 1 * end_of (fun _ => 0) (map snd all) 1%nat = IZR 1000 /\
  at_rest (overridden C64_power_up 1) C64_w 1 /\ job_ok C64_machine C64_limits C64_w 1 (overridden C64_power_up 1) [(C64_m1, C64_P1)] (C64_ops k).
Proof.
  intros k n HK js all. destruct C64_machine_ok as (MI & RT & CA). destruct (C64_first k HK) as (c1 & r1 & JD).
  assert (AL : all = [(C64_m1, C64_P1); (C64_m2, C64_P2); (C64_m3, C64_P3)]).
  { unfold all, js, motions. cbn [app flat_map fst snd]. rewrite (proj1 (C64_appended k)), (proj2 (C64_appended n)). reflexivity. }
  rewrite AL. split; auto. split; auto. split; auto. split. { exists c1, r1. split; [exact JD|apply C64_job2]. }
  split. { apply Nat.leb_le. vm_compute. reflexivity. }
  split. { cbn [map snd chained]. split; [|split; [|split; [|exact I]]]; apply lt3; unfold path_pos, linear_pos; cbn; field. }
  split; [exact C64_place|]. split. { cbn [map snd end_of]. unfold path_pos, linear_pos. cbn. field. }
  split; [constructor; reflexivity|apply C64_job1].
Qed.
