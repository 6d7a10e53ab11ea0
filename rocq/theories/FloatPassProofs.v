(** Programs handed over while they are executed, in the arithmetic of the target. *)
Require Import List Arith NArith ZArith Bool Reals Lra Lia ZifyBool ZifyNat ZifyN.
From Coq Require Import Floats.SpecFloat.
From Verif Require Import Base BaseProofs StepModel StepSpec Num NumR NumSF MotionModel CtrlModel CtrlSpec CtrlProofs ProfileSpec GeomSpec RunSpec GcodeModel GcodeSpec GcodeRSpec GText GStageProofs GMeaningProofs GLineProofs.
From Verif Require Import FloatSpec FloatRunSpec FloatProgSpec FloatArcSpec FloatProofs FloatJobProofs FloatLimitProofs FloatReadProofs FloatArcProofs FloatBendSpec FloatBendProofs FloatFlowSpec FloatFlowProofs FloatWayProofs.
Import ListNotations.
Open Scope R_scope.

Lemma move_carried X M fo u : trig_ok X -> funit_ok X M u -> forall q, move_ok X M fo u q -> exists c, carried X M fo u (fq_m q) (fq_P q) (fq_l q) c.
Proof.
  intros TR UO q [Sq|(arc & Sq)].
  - exists 1. now apply straight_carried.
  - exists over. now apply curved_carried with (arc := arc).
Qed.
Lemma flow_job X M fo u : trig_ok X -> funit_ok X M u -> forall w, float32 w (fu_W u) ->
  forall c x0 qs1 qs2, idle X c w fo -> Forall (move_ok X M fo u) (qs1 ++ qs2) -> qs1 <> [] -> (length qs1 <= 32)%nat ->
  joined (fu_k u) x0 (map fq_P (qs1 ++ qs2)) -> unbroken (map fq_P (qs1 ++ qs2)) ->
  (forall i, (i < 3)%nat -> Rabs (fu_k u i * x0 i - counted c i) <= 54/100) ->
  exists c0, c_run (sf_arith X) M c (map (fun q => OAppend (fq_m q)) qs1 ++ [OStart]) = Ok (c0, []) /\
    (forall ops, map fq_m qs2 = f_passed ops -> f_fed X M c0 ops ->
      exists legs N, Forall2 (fun g q => executes u g (fq_P q) (fq_l q)) legs (qs1 ++ qs2) /\ followed X M u w fo c0 ops x0 legs N) /\
    (sg_ticks (c_sig c) = 0%N -> (sg_maxTicks (c_sig c) < two32)%N -> forall l, map fq_m qs2 = c_passed l -> c_fed X M c0 l ->
      exists legs N, Forall2 (fun g q => executes u g (fq_P q) (fq_l q)) legs (qs1 ++ qs2) /\ called X M u w fo c0 l x0 legs N).
Proof. intros TR UO w FW c x0 qs1 qs2. apply flow_any; auto. intro q. now apply move_carried. Qed.

(** Every computation of the signals takes time. *)
Lemma calls_time X M l : forall c c' recs, length (c_pos c) = 3%nat -> sg_ticks (c_sig c) = 0%N -> (sg_maxTicks (c_sig c) < two32)%N ->
  c_run (sf_arith X) M c (map call_op l) = Ok (c', recs) -> (length (filter (fun a => match a with CCalc => true | _ => false end) l) <= N.to_nat (sum_times recs))%nat.
Proof.
  induction l as [|[m|] l IH]; intros c c' recs LP T0 MX E; cbn [map call_op c_run c_step rbind] in E.
  - injection E as <- <-. cbn. lia.
  - cbn [filter]. destruct (c_run (sf_arith X) M (c_append (sf_arith X) M c m) _) as [[c2 r]|] eqn:E2; cbn in E; [|discriminate]. injection E as <- <-.
    destruct (append_keep (sf_arith X) M c m) as (K1 & K2 & _). apply (IH _ _ _) in E2; auto; rewrite ?K1, ?K2; auto.
  - cbn [filter]. destruct (c_calc (sf_arith X) M _ c) as [[[c1 s]|]|] eqn:E1; cbn [rbind] in E; try discriminate.
    destruct (c_run (sf_arith X) M c1 _) as [[c2 r]|] eqn:E2; cbn [rbind fst snd] in E; [|discriminate]. injection E as <- <-.
    assert (ST : c_step (sf_arith X) M c OCalc = Ok (c1, [s])) by (cbn [c_step]; rewrite E1; reflexivity).
    destruct (step_run (sf_arith X) M c c1 OCalc [s] LP ST) as (_ & _ & _ & _ & L1 & T1 & _). specialize (T1 T0).
    assert (RS : c_run (sf_arith X) M c [OCalc] = Ok (c1, [s])) by (cbn [c_run]; rewrite ST; reflexivity). pose proof (run_sig (sf_arith X) M _ _ _ _ LP RS) as MX1.
    apply (IH _ _ _) in E2; auto; [|congruence].
    destruct (calc_terminates (sf_arith X) M (N.to_nat (N.max 1 (sg_maxTicks (c_sig c)))) c LP MX) as [U|(c3 & s3 & U & V)]; try lia; rewrite E1 in U; [discriminate|]. injection U as <- <-.
    cbn [length app sum_times fold_right]. change (fold_right (fun s n => (timeBefore s + n)%N) 0%N r) with (sum_times r). lia.
Qed.
Lemma calls_counted l n : (n <= length (filter (fun a => match a with CCalc => true | CPass _ => false end) (l ++ repeat CCalc n)))%nat.
Proof. rewrite filter_app, app_length. assert (E : forall n, length (filter (fun a => match a with CCalc => true | CPass _ => false end) (repeat CCalc n)) = n) by (intro k; induction k; cbn; auto). rewrite E. lia. Qed.

Lemma loads_keep X M ms : forall c c' recs, c_run (sf_arith X) M c (map OAppend ms ++ [OStart]) = Ok (c', recs) -> c_sig c' = c_sig c /\ c_pos c' = c_pos c.
Proof.
  induction ms as [|m ms IH]; intros c c' recs E; cbn [map app c_run c_step rbind] in E.
  - injection E as <- _. unfold c_start. destruct (negb _); [|auto]. match goal with |- context [c_optimize ?A M ?d] => destruct (optimize_keep A M d) as (-> & -> & _) end. auto.
  - destruct (c_run (sf_arith X) M (c_append (sf_arith X) M c m) _) as [[c2 r]|] eqn:E2; cbn in E; [|discriminate]. injection E as <- _. destruct (IH _ _ _ E2) as (-> & ->). destruct (append_keep (sf_arith X) M c m) as (-> & -> & _). auto.
Qed.
Section Pass.
Variables (X : sf_funs) (M : machine sf) (u : funit) (s : shop) (fo : sf).
Hypothesis UO : funit_ok X M u.
Hypothesis SO : shop_ok X M u s.
Notation K := (g_f X).
Lemma stream_lemma w : trig_ok X -> atan_ok X -> float32 w (fu_W u) -> forall pi c m ls c' m' outs r x0 stops fs k now later, pi_ok pi -> sized (g_st c) -> float64 (sm_radius m) r -> at64 X (s_cur (g_st c)) x0 ->
  g_run K pi c m ls = Ok (c', m', outs) -> reported outs -> route_fits X u s fo (s_cur (g_st c)) x0 (passed_on outs) stops fs ->
  map snd (passed_on outs) = now ++ later -> (1 <= length now <= 32)%nat ->
  idle X k w fo -> sg_ticks (c_sig k) = 0%N -> (sg_maxTicks (c_sig k) < two32)%N -> (forall i, (i < 3)%nat -> Rabs (fu_k u i * x0 i - counted k i) <= 54/100) ->
  let x1 := last (map to_pos stops) x0 in
  at64 X (s_cur (g_st c')) x1 /\
  exists k0, c_run (sf_arith X) M k (map OAppend now ++ [OStart]) = Ok (k0, []) /\
  forall l, c_passed l = later -> c_fed X M k0 l ->
  exists legs (N : nat), route_done u s x0 stops fs legs /\ called X M u w fo k0 l x0 legs N /\
    forall n, (N <= n)%nat -> exists kn recs, c_run (sf_arith X) M k0 (map call_op (l ++ repeat CCalc n)) = Ok (kn, recs) /\
      all_done u x0 legs kn N /\ idle X kn w fo /\
      forall i z, (i < 3)%nat -> Rabs (fu_k u i * x1 i - IZR z) < 999/1000 - reach (fu_B u) (fu_H u) -> nth i (c_pos kn) 0%Z = z.
Proof.
  intros TR AT FW pi c m ls c' m' outs r x0 stops fs k now later PO SZ FR AP GR SL SF SP LN ID T0 MX CL x1.
  destruct (route_read X M u s fo UO SO pi AT PO ls c m c' m' outs x0 r stops fs SZ FR AP GR SL SF) as (AE & qs & Q1 & Q2 & Q3). split; [exact AE|].
  destruct (route_joined u s qs x0 x0 stops fs Q3) as (JN & JE). { intros i Hi. rewrite Rminus_eq_0, Rmult_0_r, Rabs_R0. lra. }
  pose proof (route_unbroken u s qs x0 stops fs Q3) as UB.
  rewrite SP in Q1. set (qs1 := firstn (length now) qs). set (qs2 := skipn (length now) qs).
  assert (EQ : qs = qs1 ++ qs2) by (symmetry; apply firstn_skipn).
  assert (LQ : length qs = (length now + length later)%nat) by (rewrite <- (map_length fq_m), Q1, app_length; reflexivity).
  assert (L1 : length qs1 = length now) by (unfold qs1; rewrite firstn_length; lia).
  assert (E12 : map fq_m qs1 = now /\ map fq_m qs2 = later). { unfold qs1, qs2. rewrite <- firstn_map, <- skipn_map, Q1, firstn_app, skipn_app, Nat.sub_diag, firstn_all, skipn_all, firstn_O, skipn_O, app_nil_r. auto. }
  destruct E12 as (E1 & E2). rewrite EQ in Q2, JN, UB.
  destruct (flow_job X M fo u TR UO w FW k x0 qs1 qs2 ID Q2) as (k0 & R1 & _ & R2); auto.
  { intro Z. rewrite Z in L1. cbn in L1. lia. } { lia. }
  exists k0. split. { rewrite <- R1, <- E1, map_map. reflexivity. }
  intros l PL FD. destruct (R2 T0 MX l) as (legs & N & EX & CA); [congruence|exact FD|]. rewrite <- EQ in EX.
  destruct (route_executed u s qs x0 stops fs legs Q3 EX) as (LD & EP).
  exists legs, N. split; [exact LD|]. split; [exact CA|]. intros n HN.
  destruct (CA n (l ++ repeat CCalc n) [] (eq_sym (app_nil_r _))) as (kn & recs & C1 & C2). exists kn, recs. split; [exact C1|].
  assert (P0 : length (c_pos k0) = 3%nat /\ c_sig k0 = c_sig k).
  { destruct (loads_keep X M _ k k0 [] ltac:(rewrite map_map; exact R1)) as (Z1 & Z2). rewrite Z2. split; [apply ID|exact Z1]. }
  destruct P0 as (P0 & G0). assert (TN : (N <= N.to_nat (sum_times recs))%nat). { pose proof (calls_time X M (l ++ repeat CCalc n) k0 kn recs P0) as CT. rewrite G0 in CT. specialize (CT T0 MX C1). pose proof (calls_counted l n). lia. }
  cbv zeta in C2. destruct (Nat.ltb_spec (N.to_nat (sum_times recs)) N); [lia|]. destruct C2 as (C2 & C3). split; [exact C2|]. split; [exact C3|].
  intros i z Hi HZ. apply (landing_lemma u x0 legs kn N i z C2 Hi). rewrite EP.
  pose proof (JE i Hi) as J. fold x1 in J. pose proof (Rabs_triang (fu_k u i * (end_of x0 (map fq_P qs) i - x1 i)) (fu_k u i * x1 i - IZR z)) as T.
  replace (fu_k u i * (end_of x0 (map fq_P qs) i - x1 i) + (fu_k u i * x1 i - IZR z)) with (fu_k u i * end_of x0 (map fq_P qs) i - IZR z) in T by ring. lra.
Qed.
End Pass.

(** *** An example: a line is executed; the arcs are handed over later. *)
Definition ex_room (X : sf_funs) (M : machine sf) (k0 : ctrl sf) (ops : list (c_op sf sf)) : bool :=
  match c_run (sf_arith X) M k0 ops with Ok (c, _) => match c_state c with ms_running => (c_level c <? 32)%N | _ => false end | UB => false end.
Definition ex_pass X : bool := let A := sf_arith X in
  match GcodeModel.g_run (g_f X) pi_f (gcode0 (g_f X)) (sm_new (g_f X)) (map txt ex_bends) with
  | Ok (_, _, outs) =>
    match map snd (passed_on outs) with
    | [m1; m2; m3] => let k0 := c_start A (cnc3axis A) (c_append A (cnc3axis A) (c_init A 375 (tickWidth A)) m1) in ex_room X (cnc3axis A) k0 [] && ex_room X (cnc3axis A) k0 [OAppend m2; OCalc]
    | _ => false end
  | UB => false end.
Lemma ex_pass_true X : ex_pass X = true.
Proof. vm_compute. reflexivity. Qed.
Lemma ex_room_fed X M k0 m2 m3 : ex_room X M k0 [] = true -> ex_room X M k0 [OAppend m2; OCalc] = true -> c_fed X M k0 [CPass m2; CCalc; CPass m3; CCalc].
Proof.
  assert (R : forall ops c recs, ex_room X M k0 ops = true -> c_run (sf_arith X) M k0 ops = Ok (c, recs) -> c_state c = ms_running /\ (c_level c < 32)%N).
  { intros ops c recs H E. unfold ex_room in H. rewrite E in H. destruct (c_state c); try discriminate H. split; [reflexivity|lia]. }
  intros R0 R1 a y b c1 recs EL H. destruct a as [|a1 [|a2 [|a3 [|a4 a]]]]; cbn [app] in EL; try discriminate EL.
  - exact (R _ _ _ R0 H).
  - assert (E12 : a1 = CPass m2 /\ a2 = CCalc) by (split; congruence). destruct E12 as (-> & ->). exact (R _ _ _ R1 H).
  - destruct a; discriminate EL.
Qed.
Lemma pass_example X : let A := sf_arith X in let M := cnc3axis A in let k := c_init A 375 (tickWidth A) in
  sg_ticks (c_sig k) = 0%N /\ (sg_maxTicks (c_sig k) < two32)%N /\
  exists c m outs m1 m2 m3, GcodeModel.g_run (g_f X) pi_f (gcode0 (g_f X)) (sm_new (g_f X)) (map txt ex_bends) = Ok (c, m, outs) /\
    map snd (passed_on outs) = [m1] ++ [m2; m3] /\
    exists k0, c_run A M k (map OAppend [m1] ++ [OStart]) = Ok (k0, []) /\ let l := [CPass m2; CCalc; CPass m3; CCalc] in c_passed l = [m2; m3] /\ c_fed X M k0 l.
Proof.
  cbv zeta. split; [reflexivity|]. split; [reflexivity|]. pose proof (ex_pass_true X) as E. unfold ex_pass in E.
  destruct (GcodeModel.g_run (g_f X) pi_f (gcode0 (g_f X)) (sm_new (g_f X)) (map txt ex_bends)) as [[[c m] outs]|]; [|discriminate].
  exists c, m, outs. destruct (map snd (passed_on outs)) as [|m1 [|m2 [|m3 [|m4 ms]]]]; try discriminate E. exists m1, m2, m3. split; [reflexivity|]. split; [reflexivity|].
  set (A := sf_arith X) in *. set (k0 := c_start A (cnc3axis A) (c_append A (cnc3axis A) (c_init A 375 (tickWidth A)) m1)) in *.
  exists k0. split; [reflexivity|]. split; [reflexivity|]. cbv zeta in E. apply andb_prop in E. destruct E as (E1 & E2). exact (ex_room_fed _ _ _ _ _ E1 E2).
Qed.
