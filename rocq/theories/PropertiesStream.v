(** Properties of programs handed over while they are executed, in the arithmetic of the
    target: C82. *)
Require Import String List Arith NArith ZArith Bool Reals.
From Coq Require Import Floats.SpecFloat.
From Verif Require Import Base StepModel StepSpec Num NumR NumSF MotionModel GcodeModel GcodeSpec GcodeRSpec GText CtrlModel CtrlSpec GeomSpec ProfileSpec RunSpec FloatSpec FloatRunSpec FloatProgSpec FloatArcSpec FloatBendSpec FloatFlowSpec GLineProofs FloatWayProofs FloatPassProofs.
Import ListNotations.
Open Scope R_scope.

(** C82.  Some motions are queued on an idle controller and started; any number of further
    ones are handed over while it runs and there is room.  At every tick it is where
    it should be along all of them, one after the other; in the end it has done them
    all, and is idle: by ticks, and by calls of the interface. *)
Theorem C82_job_followed : forall X M fo u, trig_ok X -> funit_ok X M u -> forall w, float32 w (fu_W u) ->
  forall c x0 qs1 qs2, idle X c w fo -> Forall (move_ok X M fo u) (qs1 ++ qs2) -> qs1 <> [] -> (length qs1 <= 32)%nat ->
  joined (fu_k u) x0 (map fq_P (qs1 ++ qs2)) -> unbroken (map fq_P (qs1 ++ qs2)) ->
  (forall i, (i < 3)%nat -> Rabs (fu_k u i * x0 i - counted c i) <= 54/100) ->
  exists c0, c_run (sf_arith X) M c (map (fun q => OAppend (fq_m q)) qs1 ++ [OStart]) = Ok (c0, []) /\
    (forall ops, map fq_m qs2 = f_passed ops -> f_fed X M c0 ops ->
      exists legs N, Forall2 (fun g q => executes u g (fq_P q) (fq_l q)) legs (qs1 ++ qs2) /\ followed X M u w fo c0 ops x0 legs N) /\
    (sg_ticks (c_sig c) = 0%N -> (sg_maxTicks (c_sig c) < two32)%N -> forall l, map fq_m qs2 = c_passed l -> c_fed X M c0 l ->
      exists legs N, Forall2 (fun g q => executes u g (fq_P q) (fq_l q)) legs (qs1 ++ qs2) /\ called X M u w fo c0 l x0 legs N).
Proof. exact flow_job. Qed.
Print Assumptions C82_job_followed.

(** A program of any length, with straight motions and arcs, is read; its first motions are
    queued and started, the others handed over in time.  It is executed as if all were
    queued at once: from each position to the next, everywhere to within a millionth of a
    mm, with the feeds asked for and within the limits of every axis; after every call
    the counted position is the one due at the time of the signals computed so far; and
    after enough calls the controller is idle at the parser's position: if that is a whole
    number of steps, or near enough to one, exactly this number is counted. *)
Theorem C82_program_streamed : forall X M u s fo, funit_ok X M u -> shop_ok X M u s -> forall w, trig_ok X -> atan_ok X -> float32 w (fu_W u) ->
  forall pi c m ls c' m' outs r x0 stops fs k now later, pi_ok pi -> reached (g_f X) pi c m -> float64 (sm_radius m) r -> at64 X (s_cur (g_st c)) x0 ->
  g_run (g_f X) pi c m ls = Ok (c', m', outs) -> reported outs -> route_fits X u s fo (s_cur (g_st c)) x0 (passed_on outs) stops fs ->
  map snd (passed_on outs) = now ++ later -> (1 <= length now <= 32)%nat ->
  idle X k w fo -> sg_ticks (c_sig k) = 0%N -> (sg_maxTicks (c_sig k) < two32)%N -> (forall i, (i < 3)%nat -> Rabs (fu_k u i * x0 i - counted k i) <= 54/100) ->
  let x1 := last (map to_pos stops) x0 in
  at64 X (s_cur (g_st c')) x1 /\
  exists k0, c_run (sf_arith X) M k (map OAppend now ++ [OStart]) = Ok (k0, []) /\
  forall l, c_passed l = later -> c_fed X M k0 l ->
  exists legs (N : nat), route_done u s x0 stops fs legs /\ called X M u w fo k0 l x0 legs N /\
    forall n, (N <= n)%nat -> exists kn recs, c_run (sf_arith X) M k0 (map call_op (l ++ repeat CCalc n)) = Ok (kn, recs) /\
      all_done u x0 legs kn N /\ idle X kn w fo /\
      forall i z, (i < 3)%nat -> Rabs (fu_k u i * x1 i - IZR z) < 999/1000 - reach (fu_B u) (fu_H u) -> nth i (c_pos kn) 0%Z = z.
Proof. intros X M u s fo UO SO w TO AO FW pi c m ls c' m' outs r x0 stops fs k now later PO RE. exact (stream_lemma X M u s fo UO SO w TO AO FW pi c m ls c' m' outs r x0 stops fs k now later PO (reached_sized _ _ _ _ RE)). Qed.
Print Assumptions C82_program_streamed.

(** The program of [C81_hypotheses], which meets the hypotheses about programs: its line is
    started, one arc is handed over at once, the other after the next signals. *)
Example C82_hypotheses : forall X, let A := sf_arith X in let M := cnc3axis A in let k := c_init A 375 (tickWidth A) in
  sg_ticks (c_sig k) = 0%N /\ (sg_maxTicks (c_sig k) < two32)%N /\
  exists c m outs m1 m2 m3, g_run (g_f X) pi_f (gcode0 (g_f X)) (sm_new (g_f X)) (map txt ex_bends) = Ok (c, m, outs) /\
    map snd (passed_on outs) = [m1] ++ [m2; m3] /\
    exists k0, c_run A M k (map OAppend [m1] ++ [OStart]) = Ok (k0, []) /\ let l := [CPass m2; CCalc; CPass m3; CCalc] in c_passed l = [m2; m3] /\ c_fed X M k0 l.
Proof. exact pass_example. Qed.
