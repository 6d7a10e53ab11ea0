(** Steps reach the motors as pulses of their own when motions are handed over between the
    computations of signals. *)
Require Import List Arith NArith ZArith Bool Reals Lra Lia ZifyBool ZifyNat ZifyN.
From Coq Require Import Floats.SpecFloat.
From Verif Require Import Base BaseProofs StepModel StepSpec StepSignalsProofs Num NumR NumSF MotionModel CtrlModel CtrlSpec CtrlProofs CtrlTimeProofs RingProofs.
From Verif Require Import ProfileSpec GeomSpec RunSpec FloatSpec FloatRunSpec FloatProofs FloatRunProofs FloatJobProofs FloatFlowSpec FloatFlowProofs FloatArcSpec FloatArcProofs GapSpec GapProofs GapPulseProofs GapFlowProofs.
Import ListNotations.
Open Scope R_scope.

Section Calls.
Variables (X : sf_funs) (M : machine sf) (fo : sf) (u : funit).
Notation A := (sf_arith X).
Hypothesis UO : funit_ok X M u.
Hypothesis TR : trig_ok X.
Hypothesis FS : fine_steps u.
Variable w : sf.
Hypothesis FW : float32 w (fu_W u).
Notation lives := (live X (fu_k u) (fu_B u) (fu_H u) (fu_W u) (fu_T u) w).
Notation y it O n i := (yof (fu_k u) (fu_W u) it O n i).
Notation ends it its := (last (map (fun it => it_P it) its) (it_P it)).
Notation leads := (led X M fo u w).

Lemma led_pass c pre it its n o O m0 jn q qs : leads c pre it its n o O m0 jn (q :: qs) -> (c_level c < 32)%N ->
  exists its', leads (c_append A M c (fq_m q)) pre it its' n o O m0 jn qs.
Proof.
  intros [L HO CA FQ JN UB] LV. cbn [map] in *. inversion FQ as [|? ? FQ1 FQ2]; subst.
  cbn [joined] in JN. destruct JN as (ME & JN). cbn [unbroken] in UB. destruct UB as (FL & UB).
  destruct (append_live X M fo u UO (both X M fo u) (both_carried X M fo u UO TR) w c pre it its n o O m0 jn q L HO LV FQ1 ME FL) as (it1 & D1 & L1 & HO1).
  assert (LE : ends it (its ++ [it1]) = fq_P q). { rewrite map_app. cbn [map]. rewrite last_snoc. apply D1. }
  exists (its ++ [it1]). constructor; auto; try (rewrite LE; auto).
  change (it :: its ++ [it1]) with ((it :: its) ++ [it1]). apply Forall_app. split; [exact CA|]. constructor; [|constructor]. exact (both_calm X M fo u UO TR q it1 FQ1 D1).
Qed.
Lemma led_tick c c' pre it its n o O m0 jn qs : leads c pre it its n o O m0 jn qs -> c_tick A M c = Ok c' ->
  c_state c' = ms_stopped \/
  exists pre' it' its' n' o' O' m0' jn', leads c' pre' it' its' n' o' O' m0' jn' qs /\ forall i, (i < 3)%nat -> Rabs (y it' O' n' i - y it O n i) <= / 20.
Proof.
  intros [L HO CA FQ JN UB] E. destruct UO as [U1 (U2 & U2') U3 U4].
  destruct (tick_near X M (fu_k u) (fu_B u) (fu_H u) (fu_W u) (fu_T u) w) with (c := c) (pre := pre) (it := it) (its := its) (n := n) (o := o) (O := O) (m0 := m0) (jn := jn) (c' := c')
    as [(S & P)|(p1 & it1 & is1 & n1 & o1 & O1 & m1 & j1 & L1 & CA1 & EE & N1)]; auto.
  - intros i Hi. apply U1; auto.
  - intros i Hi. apply Rlt_le, U1; auto.
  - unfold dlt. unfold fine_steps in FS. lra.
  - left. revert S; unfold c_isRunning; destruct (c_state c'); cbn; congruence.
  - right. exists p1, it1, is1, n1, o1, O1, m1, j1. split; [|exact N1]. constructor; auto; try (rewrite EE; auto). exact (tick_housed X M fo w c c' HO E).
Qed.
Lemma led_sig c g pre it its n o O m0 jn qs : leads c pre it its n o O m0 jn qs -> leads (c_with_sig c g) pre it its n o O m0 jn qs.
Proof. intros [L HO CA FQ JN UB]. constructor; auto. - eapply live_sig; eauto. - eapply housed_sig; eauto. Qed.

(** How [c] was reached: by a tick with the commands [p]. *)
Definition trail (p : list (option dir)) (c : ctrl sf) pre it n o O m0 jn : Prop :=
  (forall i, (i < 3)%nat -> is_cmd (nth i p None) = false) \/
  exists b preb itb itsb nb ob Ob mb jb c1 its1, lives b preb itb itsb nb ob Ob mb jb /\ c_tick A M b = Ok c1 /\ lives c1 pre it its1 n o O m0 jn /\
    (forall i, (i < 3)%nat -> Rabs (y it O n i - y itb Ob nb i) <= / 20) /\ c_pos c = c_pos c1 /\
    forall i, (i < 3)%nat -> is_cmd (nth i p None) = true -> nth i (c_pos c1) 0%Z <> nth i (c_pos b) 0%Z.
Definition keeps (p : list (option dir)) (c : ctrl sf) (qs : list fmotion) : Prop :=
  c_state c = ms_stopped \/ exists pre it its n o O m0 jn, leads c pre it its n o O m0 jn qs /\ trail p c pre it n o O m0 jn.
Lemma trail_pos p c c' pre it n o O m0 jn : c_pos c' = c_pos c -> trail p c pre it n o O m0 jn -> trail p c' pre it n o O m0 jn.
Proof.
  intros E [H|(b & preb & itb & itsb & nb & ob & Ob & mb & jb & c1 & its1 & H1 & H2 & H3 & H4 & H5 & H6)]; [left; exact H|right].
  exists b, preb, itb, itsb, nb, ob, Ob, mb, jb, c1, its1. repeat (split; [auto; congruence|]). exact H6.
Qed.
Lemma keeps_sig p c g qs : keeps p c qs -> keeps p (c_with_sig c g) qs.
Proof.
  intros [S|(pre & it & its & n & o & O & m0 & jn & L & T)]; [left; exact S|right]. exists pre, it, its, n, o, O, m0, jn. split; [apply led_sig; exact L|].
  eapply trail_pos; [|exact T]. reflexivity.
Qed.
Lemma keeps_tick p c c1 cs qs : length (c_pos c) = 3%nat -> keeps p c qs -> c_tick A M c = Ok c1 -> c_pos c1 = add_cmds (c_pos c) cs ->
  keeps cs c1 qs /\ forall i, (i < 3)%nat -> ~ (is_cmd (nth i p None) = true /\ is_cmd (nth i cs None) = true).
Proof.
  intros HL K E P.
  assert (CH : forall i, (i < 3)%nat -> is_cmd (nth i cs None) = true -> nth i (c_pos c1) 0%Z <> nth i (c_pos c) 0%Z).
  { intros i Hi C Q. rewrite P, add_cmds_nth in Q by auto. apply is_cmd_zdir in C. lia. }
  destruct K as [S|(pre & it & its & n & o & O & m0 & jn & L & T)].
  - rewrite (rest_tick X M c S) in E. inversion E; subst. split; [left; exact S|]. intros i Hi (_ & C). apply (CH i Hi C). reflexivity.
  - split.
    + destruct (led_tick _ _ _ _ _ _ _ _ _ _ _ L E) as [S|(p1 & it1 & is1 & n1 & o1 & O1 & m1 & j1 & L1 & N1)]; [left; exact S|right].
      exists p1, it1, is1, n1, o1, O1, m1, j1. split; [exact L1|]. right. exists c, pre, it, its, n, o, O, m0, jn, c1, is1.
      split; [apply L|]. split; [exact E|]. split; [apply L1|]. split; [exact N1|]. split; [reflexivity|exact CH].
    + intros i Hi (C1 & C2). destruct T as [T|(b & preb & itb & itsb & nb & ob & Ob & mb & jb & k1 & its1 & H1 & H2 & H3 & H4 & H5 & H6)]; [rewrite T in C1 by auto; discriminate|].
      destruct UO as [U1 (U2 & U2') U3 U4].
      destruct (near_apart X M (fu_k u) (fu_B u) (fu_H u) (fu_W u) (fu_T u) w) with (c := b) (pre := preb) (it := itb) (its := itsb) (n := nb) (o := ob) (O := Ob) (m0 := mb) (jn := jb)
        (c1 := k1) (pre1 := pre) (it1 := it) (its1 := its1) (n1 := n) (o1 := o) (O1 := O) (m1 := m0) (jn1 := jn) (c2 := c) (its2 := its) (c3 := c1) (i := i) as [Q|Q]; auto;
        try (destruct L; assumption); try (intros i' Hi'; apply U1; auto); try (intros i' Hi'; apply Rlt_le, U1; auto).
      * unfold dlt. unfold fine_steps in FS. lra.
      * apply (H6 i Hi C1). rewrite <- H5. exact Q.
      * exact (CH i Hi C2 Q).
Qed.
Lemma calc_sp fuel : forall c c' s p qs, length (c_pos c) = 3%nat -> keeps p c qs -> c_calc A M fuel c = Ok (Some (c', s)) ->
  exists css, fst (fst (sg_run (c_sig c) css)) = c_sig c' /\ snd (sg_run (c_sig c) css) = [s] /\ length (c_pos c') = 3%nat /\
    (forall a, (a < 3)%nat -> nth a (c_pos c') 0%Z = (nth a (c_pos c) 0 + net (cmd_at a css))%Z) /\
    (forall a, (a < 3)%nat -> spaced (cmd_at a (p :: css))) /\ keeps (last css p) c' qs.
Proof.
  induction fuel; intros c c' s p qs HL J H; cbn [c_calc] in H; [discriminate|].
  unfold rbind in H. destruct (c_tick A M c) as [c1|] eqn:E; [|discriminate].
  destruct (tick_cmds A M _ _ HL E) as (cs & Lcs & S1 & P1). destruct (keeps_tick p c c1 cs qs HL J E P1) as (J1 & SP).
  assert (L1 : length (c_pos c1) = 3%nat) by (rewrite P1; apply add_cmds_length; auto).
  destruct (sg_isModified (c_sig c1) || sg_isTimedOut (c_sig c1))%bool eqn:EM.
  - destruct (sg_output (c_sig c1)) as [g s'] eqn:EO. inversion H; subst; clear H.
    exists [cs]. cbn [sg_run]. unfold sg_tick. rewrite <- S1, EM, EO. cbn [fst snd].
    split; [reflexivity|]. split; [reflexivity|]. split; [exact L1|]. split; [|split; [|exact (keeps_sig _ _ g _ J1)]].
    + intros a Ha. cbn [c_with_sig c_pos]. rewrite P1, add_cmds_nth by auto. cbn [cmd_at map net fold_right]. lia.
    + intros a Ha. cbn [cmd_at map spaced]. split; auto.
  - destruct (IHfuel _ _ _ cs qs L1 J1 H) as (css & F1 & R1 & LL & P2 & SP2 & J2).
    exists (cs :: css). cbn [sg_run]. unfold sg_tick. rewrite <- S1, EM.
    destruct (sg_run (c_sig c1) css) as [[g pins] recs] eqn:ER. cbn [fst snd] in *.
    split; [auto|]. split; [auto|]. split; [auto|]. split; [|split].
    + intros a Ha. rewrite P2, P1, add_cmds_nth by auto.
      change (net (cmd_at a (cs :: css))) with (zdir (nth a cs None) + net (cmd_at a css))%Z. lia.
    + intros a Ha. specialize (SP2 a Ha). cbn [cmd_at map] in *. split; [apply SP; auto|exact SP2].
    + rewrite last_cons. exact J2.
Qed.
Lemma calls_sp l : forall c c' recs p qs, length (c_pos c) = 3%nat -> keeps p c qs -> map fq_m qs = c_passed l -> c_fed X M c l -> c_run A M c (map call_op l) = Ok (c', recs) ->
  exists css, fst (fst (sg_run (c_sig c) css)) = c_sig c' /\ snd (sg_run (c_sig c) css) = recs /\
    (forall a, (a < 3)%nat -> nth a (c_pos c') 0%Z = (nth a (c_pos c) 0 + net (cmd_at a css))%Z) /\
    (forall a, (a < 3)%nat -> spaced (cmd_at a (p :: css))).
Proof.
  induction l as [|[m|] l IH]; intros c c' recs p qs HL J EP FD H.
  - cbn in H. inversion H; subst. exists []. cbn. repeat split; auto. intros. lia.
  - cbn [c_passed] in EP. destruct qs as [|q qs]; [discriminate|]. cbn [map] in EP. injection EP as <- EP.
    destruct (FD [] (fq_m q) l c [] eq_refl eq_refl) as (SR & LV).
    destruct J as [S|(pre & it & its & n & o & O & m0 & jn & L & T)]; [rewrite S in SR; discriminate|].
    destruct (led_pass _ _ _ _ _ _ _ _ _ _ _ L LV) as (its1 & L1). destruct (append_keep A M c (fq_m q)) as (K1 & K2 & _).
    cbn [map call_op c_run c_step rbind] in H. destruct (c_run A M (c_append A M c (fq_m q)) (map call_op l)) as [[c2 s2]|] eqn:E2; cbn [rbind] in H; [|discriminate]. inversion H; subst; clear H.
    destruct (IH (c_append A M c (fq_m q)) c' recs p qs) as (css & G & R & P & SP); auto; try congruence.
    { right. exists pre, it, its1, n, o, O, m0, jn. split; [exact L1|]. eapply trail_pos; [|exact T]. exact K2. }
    { intros a m b d rs EQ RR. apply (FD (CPass (fq_m q) :: a) m b d rs); [cbn; now rewrite EQ|]. cbn [map call_op c_run c_step rbind]. rewrite RR. reflexivity. }
    rewrite K1, K2 in *. exists css. auto.
  - cbn [c_passed] in EP. cbn [map call_op c_run] in H. unfold rbind in H. destruct (c_step A M c OCalc) as [[c1 s1]|] eqn:E; [|discriminate].
    destruct (c_run A M c1 (map call_op l)) as [[c2 s2]|] eqn:E2; [|discriminate]. inversion H; subst; clear H. pose proof E as ES.
    cbn [c_step] in E. unfold rbind in E. destruct (c_calc A M _ c) as [[[d s]|]|] eqn:EC; try discriminate. inversion E; subst; clear E.
    destruct (calc_sp _ _ _ _ _ _ HL J EC) as (l1 & G1 & R1 & L1 & P1 & SP1 & J1).
    destruct (IH c1 c' s2 (last l1 p) qs) as (l2 & G2 & R2 & P2 & SP2); auto.
    { intros a m b d rs EQ RR. apply (FD (CCalc :: a) m b d ([s] ++ rs)); [cbn; now rewrite EQ|]. cbn [map call_op c_run]. rewrite ES. cbn [rbind]. rewrite RR. reflexivity. }
    exists (l1 ++ l2). rewrite sg_run_app. destruct (sg_run (c_sig c) l1) as [[g1 p1] q1]. cbn in G1, R1. subst g1 q1.
    destruct (sg_run (c_sig c1) l2) as [[g2 p2] q2]. cbn in G2, R2 |- *. subst. split; [auto|]. split; [auto|]. split.
    + intros a Ha. rewrite cmd_at_app, net_app, P2, P1 by auto. lia.
    + intros a Ha. specialize (SP1 a Ha). specialize (SP2 a Ha). cbn [cmd_at map] in *. fold (cmd_at a (l1 ++ l2)). rewrite cmd_at_app.
      apply spaced_app; [exact SP1|]. rewrite <- last_cmd. exact SP2.
Qed.
Lemma fed_pulses m x0 qs1 qs2 : let c := c_init A m w in (m < two32)%N ->
  idle X c w fo -> Forall (move_ok X M fo u) (qs1 ++ qs2) -> Forall (slow u) (qs1 ++ qs2) -> qs1 <> [] -> (length qs1 <= 32)%nat ->
  joined (fu_k u) x0 (map fq_P (qs1 ++ qs2)) -> unbroken (map fq_P (qs1 ++ qs2)) ->
  (forall i, (i < 3)%nat -> Rabs (fu_k u i * x0 i - counted c i) <= 54/100) ->
  exists c0, c_run A M c (map (fun q => OAppend (fq_m q)) qs1 ++ [OStart]) = Ok (c0, []) /\
    forall l, map fq_m qs2 = c_passed l -> c_fed X M c0 l -> forall c' recs, c_run A M c0 (map call_op l) = Ok (c', recs) ->
    forall a, (a < 3)%nat -> exists pend, (length pend <= 1)%nat /\ nth a (c_pos c') 0%Z = net_dirs (pulses (N.of_nat a) false (replay 0 recs) ++ pend).
Proof.
  intros c Hm ID MO SL NE HL JN UB CL.
  destruct (fed_start X M fo u UO TR w c x0 qs1 qs2 ID MO SL NE HL JN UB CL) as (c0 & R0 & pre & it & its & n & o & O & m0 & jn & LD).
  exists c0. split; [exact R0|]. intros l EP FD c' recs RC a Ha.
  assert (R0' : c_run A M c (map OAppend (map fq_m qs1) ++ [OStart]) = Ok (c0, [])) by (rewrite map_map; exact R0).
  destruct (loads_keep A M _ _ _ _ R0') as (S0 & P0 & _). unfold c in S0, P0.
  assert (LP : length (c_pos c0) = 3%nat) by (rewrite P0; reflexivity).
  destruct (calls_sp l c0 c' recs [] qs2 LP) as (css & G & Q & P & SP); auto.
  { right. exists pre, it, its, n, o, O, m0, jn. split; [exact LD|]. left. intros [|[|[|i]]] _; reflexivity. }
  destruct (run_css A M _ _ _ _ LP RC) as (_ & _ & _ & _ & _ & T & _).
  rewrite S0 in G, Q, T. change (c_sig (c_init A m w)) with (sg_setMaxTicks sg_zero m) in *. specialize (T eq_refl).
  pose proof (records_run css (sg_setMaxTicks sg_zero m) ltac:(now right) Hm) as RR.
  destruct (pulses_pending m css (N.of_nat a)) as (pend & L & E).
  { unfold nmbrAxis. lia. }
  { rewrite Nat2N.id. specialize (SP a Ha). cbn [cmd_at map] in SP. fold (cmd_at a css) in SP. destruct (cmd_at a css); [exact I|apply SP]. }
  exists pend. split; [exact L|]. rewrite P by auto. rewrite P0. replace (nth a (c_pos (c_init A m w)) 0%Z) with 0%Z by (destruct a as [|[|[|]]]; try lia; reflexivity).
  rewrite Nat2N.id in E. rewrite <- net_commanded, <- E, Z.add_0_l. f_equal. f_equal. f_equal.
  unfold pins_of. destruct (sg_run (sg_setMaxTicks sg_zero m) css) as [[g2 p2] q2]. cbn in G, Q. subst. destruct RR as (RR & _).
  rewrite T in RR. cbn in RR. rewrite app_nil_r in RR. exact RR.
Qed.
End Calls.

(** *** The motions of [apart_example], the second handed over after the first signals. *)
Definition room_after (A : arith sf sf) (M : machine sf) (m : smotion sf) : bool :=
  match c_run A M (c_start A M (c_append A M (c_init A 375 (tickWidth A)) m)) [OCalc] with
  | Ok (c, _) => (match c_state c with ms_running => true | _ => false end && (c_level c <? 32)%N)%bool | UB => false end.
Lemma called_one X M m1 m2 : room_after (sf_arith X) M m1 = true -> let A := sf_arith X in
  exists c0, c_run A M (c_init A 375 (tickWidth A)) [OAppend m1; OStart] = Ok (c0, []) /\ c_fed X M c0 [CCalc; CPass m2; CCalc].
Proof.
  unfold room_after. cbv zeta. generalize (c_init (sf_arith X) 375 (tickWidth (sf_arith X))). intros k E.
  exists (c_start (sf_arith X) M (c_append (sf_arith X) M k m1)). split; [reflexivity|].
  set (c0 := c_start (sf_arith X) M (c_append (sf_arith X) M k m1)) in *. clearbody c0.
  intros a m b c recs EQ R. destruct a as [|a1 a]; [discriminate EQ|]. cbn [app] in EQ. injection EQ as <- EQ.
  destruct a as [|x a]; [|exfalso; cbn [app] in EQ; injection EQ as _ EQ; destruct a as [|x1 [|x2 a]]; discriminate EQ].
  cbn [map call_op] in R. rewrite R in E. apply andb_prop in E. destruct E as (E1 & E2).
  split; [destruct (c_state c); auto; discriminate|]. now apply N.ltb_lt.
Qed.
Lemma room_after_true X : room_after (sf_arith X) (cnc3axis (sf_arith X)) (fq_m (ex_slow1 X)) = true.
Proof. vm_compute. reflexivity. Qed.
Lemma called_example X : let A := sf_arith X in let M := cnc3axis A in let k := c_init A 375 (tickWidth A) in
  exists c0, c_run A M k (map (fun q => OAppend (fq_m q)) [ex_slow1 X] ++ [OStart]) = Ok (c0, []) /\
    let l := [CCalc; CPass (fq_m (ex_slow2 X)); CCalc] in map fq_m [ex_slow2 X] = c_passed l /\ c_fed X M c0 l.
Proof.
  cbv zeta. pose proof (called_one X (cnc3axis (sf_arith X)) _ (fq_m (ex_slow2 X)) (room_after_true X)) as (c0 & E1 & E2). exists c0. split; [exact E1|]. split; [reflexivity|exact E2].
Qed.
