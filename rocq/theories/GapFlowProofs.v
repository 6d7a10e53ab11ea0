(** Steps of an axis are apart when motions are handed over while others are executed. *)
Require Import List Arith NArith ZArith Bool Reals Lra Lia ZifyBool ZifyNat ZifyN.
From Coq Require Import Floats.SpecFloat.
From Verif Require Import Base BaseProofs StepModel StepSpec Num NumR NumSF MotionModel CtrlModel CtrlSpec CtrlProofs CtrlTimeProofs RingProofs.
From Verif Require Import ProfileSpec GeomSpec RunSpec FloatSpec FloatRunSpec FloatProofs FloatRunProofs FloatJobProofs FloatFlowSpec FloatFlowProofs FloatArcSpec FloatArcProofs GapSpec GapProofs.
Import ListNotations.
Open Scope R_scope.

Section Fed.
Variables (X : sf_funs) (M : machine sf) (fo : sf) (u : funit).
Notation A := (sf_arith X).
Hypothesis UO : funit_ok X M u.
Hypothesis TR : trig_ok X.
Hypothesis FS : fine_steps u.
Variable w : sf.
Hypothesis FW : float32 w (fu_W u).
Notation lives := (live X (fu_k u) (fu_B u) (fu_H u) (fu_W u) (fu_T u) w).
Notation calms := (calm (fu_k u) (fu_H u) (fu_W u) (fu_T u)).
Notation y it O n i := (yof (fu_k u) (fu_W u) it O n i).
Notation ends it its := (last (map (fun it => it_P it) its) (it_P it)).
Definition both q : Prop := move_ok X M fo u q /\ slow u q.
Lemma both_carried q : both q -> exists c, carried X M fo u (fq_m q) (fq_P q) (fq_l q) c.
Proof. intros [H _]. destruct (move_factor X M fo u UO q TR H) as (c & CD & _). eauto. Qed.
Lemma both_calm q it : both q -> executes u (fi_leg it) (fq_P q) (fq_l q) -> calms it.
Proof. intros [H1 H2] E. destruct (move_factor X M fo u UO q TR H1) as (cc & CD & C0). eapply slow_calm; eauto. Qed.
Lemma small_ok : 3 * slack (fu_B u) + fu_H u / 65000 < / 40.
Proof. exact FS. Qed.

(** What holds while a motion is executed and [qs] are to be handed over. *)
Record led c pre it its n o O m0 jn (qs : list fmotion) : Prop := {
  le_live : lives c pre it its n o O m0 jn;
  le_housed : housed X fo w c;
  le_calm : Forall calms (it :: its);
  le_fine : Forall both qs;
  le_join : joined (fu_k u) (fun i => path_pos (ends it its) i (pa_len (ends it its))) (map fq_P qs);
  le_flush : unbroken (ends it its :: map fq_P qs) }.
Record ready (ops : list fop) c pre it its n o O m0 jn (qs : list fmotion) : Prop := {
  re_live : lives c pre it its n o O m0 jn;
  re_housed : housed X fo w c;
  re_calm : Forall calms (it :: its);
  re_fine : Forall both qs;
  re_pass : map fq_m qs = f_passed ops;
  re_join : joined (fu_k u) (fun i => path_pos (ends it its) i (pa_len (ends it its))) (map fq_P qs);
  re_flush : unbroken (ends it its :: map fq_P qs);
  re_fed : f_fed X M c ops }.
Lemma pass_ready m ops c pre it its n o O m0 jn qs : ready (FPass m :: ops) c pre it its n o O m0 jn qs ->
  exists its' qs', ready ops (c_append A M c m) pre it its' n o O m0 jn qs'.
Proof.
  intros [L HO CA FQ EP JN UB FD]. cbn [f_passed] in EP. destruct qs as [|q qs]; [discriminate|]. cbn [map] in *. injection EP as <- EP. inversion FQ as [|? ? FQ1 FQ2]; subst.
  cbn [joined] in JN. destruct JN as (ME & JN). cbn [unbroken] in UB. destruct UB as (FL & UB).
  destruct (FD [] (fq_m q) ops c eq_refl eq_refl) as (_ & LV).
  destruct (append_live X M fo u UO both both_carried w c pre it its n o O m0 jn q L HO LV FQ1 ME FL) as (it1 & D1 & L1 & HO1).
  assert (LE : ends it (its ++ [it1]) = fq_P q). { rewrite map_app. cbn [map]. rewrite last_snoc. apply D1. }
  exists (its ++ [it1]), qs. constructor; auto; try (rewrite LE; auto).
  - change (it :: its ++ [it1]) with ((it :: its) ++ [it1]). apply Forall_app. split; [exact CA|]. constructor; [|constructor]. exact (both_calm q it1 FQ1 D1).
  - apply pass_fed; auto.
Qed.
Lemma passes_ready ms : forall ops c c' pre it its n o O m0 jn qs, ready (map FPass ms ++ ops) c pre it its n o O m0 jn qs -> f_run X M c (map FPass ms) = Ok c' ->
  c_pos c' = c_pos c /\ exists its' qs', ready ops c' pre it its' n o O m0 jn qs'.
Proof.
  induction ms as [|m ms IH]; intros ops c c' pre it its n o O m0 jn qs R E; cbn [map app f_run] in *; [inversion E; subst; eauto|].
  destruct (pass_ready _ _ _ _ _ _ _ _ _ _ _ _ R) as (its1 & qs1 & R1). destruct (IH _ _ _ _ _ _ _ _ _ _ _ _ R1 E) as (P & its2 & qs2 & R2).
  split; [rewrite P; apply append_keep|eauto].
Qed.
Lemma tick_ready ops c c' pre it its n o O m0 jn qs : ready (FTick :: ops) c pre it its n o O m0 jn qs -> c_tick A M c = Ok c' ->
  (c_state c' = ms_stopped /\ c_pos c' = c_pos c /\ f_passed ops = []) \/
  exists pre' it' its' n' o' O' m0' jn', ready ops c' pre' it' its' n' o' O' m0' jn' qs /\ forall i, (i < 3)%nat -> Rabs (y it' O' n' i - y it O n i) <= / 20.
Proof.
  intros [L HO CA FQ EP JN UB FD] E. pose proof (tick_fed X M c c' ops FD E) as FD1. destruct UO as [U1 (U2 & U2') U3 U4].
  destruct (tick_near X M (fu_k u) (fu_B u) (fu_H u) (fu_W u) (fu_T u) w) with (c := c) (pre := pre) (it := it) (its := its) (n := n) (o := o) (O := O) (m0 := m0) (jn := jn) (c' := c')
    as [(S & P)|(p1 & it1 & is1 & n1 & o1 & O1 & m1 & j1 & L1 & CA1 & EE & N1)]; auto.
  - intros i Hi. apply U1; auto.
  - intros i Hi. apply Rlt_le, U1; auto.
  - unfold dlt. pose proof small_ok. lra.
  - left. assert (SS : c_state c' = ms_stopped) by (revert S; unfold c_isRunning; destruct (c_state c'); cbn; congruence). split; [exact SS|]. split; [exact P|]. eapply rest_fed; eauto.
  - right. exists p1, it1, is1, n1, o1, O1, m1, j1. split; [|exact N1]. constructor; auto; try (rewrite EE; auto). exact (tick_housed X M fo w c c' HO E).
Qed.

Definition onway (ops : list fop) (c : ctrl sf) : Prop :=
  (c_state c = ms_stopped /\ f_passed ops = []) \/ exists pre it its n o O m0 jn qs, ready ops c pre it its n o O m0 jn qs.
Lemma onway_run a : forall b c c', onway (a ++ b) c -> f_run X M c a = Ok c' -> onway b c'.
Proof.
  induction a as [|[|m] a IH]; intros b c c' H E; cbn [app f_run] in *; [inversion E; subst; auto| |].
  - destruct (c_tick A M c) as [c1|] eqn:E1; [|discriminate]. cbn [rbind] in E. apply (IH b c1 c'); auto.
    destruct H as [(S & P)|(pre & it & its & n & o & O & m0 & jn & qs & R)].
    + left. split; [|exact P]. rewrite (rest_tick X M c S) in E1. inversion E1; subst. exact S.
    + destruct (tick_ready _ _ _ _ _ _ _ _ _ _ _ _ R E1) as [(S & _ & P)|(p1 & it1 & is1 & n1 & o1 & O1 & m1 & j1 & R1 & _)]; [left; auto|right].
      exists p1, it1, is1, n1, o1, O1, m1, j1, qs. exact R1.
  - apply (IH b (c_append A M c m) c'); auto. destruct H as [(_ & P)|(pre & it & its & n & o & O & m0 & jn & qs & R)]; [discriminate P|].
    destruct (pass_ready _ _ _ _ _ _ _ _ _ _ _ _ R) as (is1 & qs1 & R1). right. exists pre, it, is1, n, o, O, m0, jn, qs1. exact R1.
Qed.
Lemma onway_apart ms b c c2 c3 : onway (FTick :: map FPass ms ++ FTick :: b) c -> f_run X M c (FTick :: map FPass ms) = Ok c2 -> c_tick A M c2 = Ok c3 ->
  forall i, (i < 3)%nat -> nth i (c_pos c2) 0%Z = nth i (c_pos c) 0%Z \/ nth i (c_pos c3) 0%Z = nth i (c_pos c2) 0%Z.
Proof.
  intros H E E3 i Hi. cbn [f_run] in E. destruct (c_tick A M c) as [c1|] eqn:E1; [|discriminate]. cbn [rbind] in E.
  assert (NP : f_passed (map FPass ms ++ FTick :: b) = [] -> ms = []) by (destruct ms; [reflexivity|discriminate]).
  destruct H as [(S & P)|(pre & it & its & n & o & O & m0 & jn & qs & R)].
  - left. cbn [f_passed] in P. rewrite (NP P) in E. cbn in E. inversion E; subst. rewrite (rest_tick X M c S) in E1. inversion E1; subst. reflexivity.
  - destruct (tick_ready _ _ _ _ _ _ _ _ _ _ _ _ R E1) as [(S & P1 & P)|(p1 & it1 & is1 & n1 & o1 & O1 & m1 & j1 & R1 & N1)].
    + left. rewrite (NP P) in E. cbn in E. inversion E; subst. now rewrite P1.
    + destruct (passes_ready ms (FTick :: b) _ _ _ _ _ _ _ _ _ _ _ R1 E) as (P2 & is2 & qs2 & R2). destruct UO as [U1 (U2 & U2') U3 U4].
      apply (near_apart X M (fu_k u) (fu_B u) (fu_H u) (fu_W u) (fu_T u) w) with (pre := pre) (it := it) (its := its) (n := n) (o := o) (O := O) (m0 := m0) (jn := jn)
        (c1 := c1) (pre1 := p1) (it1 := it1) (its1 := is1) (n1 := n1) (o1 := o1) (O1 := O1) (m1 := m1) (jn1 := j1) (its2 := is2); auto.
      all: try apply R; try apply R1; try apply R2; try (intros i' Hi'; apply U1; auto); try (intros i' Hi'; apply Rlt_le, U1; auto). unfold dlt. pose proof small_ok. lra.
Qed.
Lemma fed_start c x0 qs1 qs2 : idle X c w fo -> Forall (move_ok X M fo u) (qs1 ++ qs2) -> Forall (slow u) (qs1 ++ qs2) -> qs1 <> [] -> (length qs1 <= 32)%nat ->
  joined (fu_k u) x0 (map fq_P (qs1 ++ qs2)) -> unbroken (map fq_P (qs1 ++ qs2)) ->
  (forall i, (i < 3)%nat -> Rabs (fu_k u i * x0 i - counted c i) <= 54/100) ->
  exists c0, c_run A M c (map (fun q => OAppend (fq_m q)) qs1 ++ [OStart]) = Ok (c0, []) /\ exists pre it its n o O m0 jn, led c0 pre it its n o O m0 jn qs2.
Proof.
  intros ID MO SL NE HL JN UB CL.
  assert (EX : Forall both (qs1 ++ qs2)). { revert SL. clear - MO. induction MO; intro SL; constructor; inversion SL; subst; auto. split; auto. }
  apply Forall_app in EX. destruct EX as (EX1 & EX2).
  destruct (appends_floaded X M fo u both both_carried w qs1 c [] (idle_floaded X M fo w c ID) EX1 HL) as (c1 & R1 & L1 & P1). cbn [app] in L1.
  destruct qs1 as [|q qs1]; [congruence|]. cbn [app map joined] in JN. destruct JN as (J1 & J2).
  assert (JS : forall l l' x, joined (fu_k u) x (l ++ l') -> joined (fu_k u) x l /\ joined (fu_k u) (end_of x l) l').
  { clear. induction l as [|P l IH]; intros l' x J; cbn [app joined end_of] in *; [split; [exact I|exact J]|]. destruct J as (J1 & J2). destruct (IH _ _ J2). auto. }
  assert (US : forall l P l', unbroken (P :: l ++ l') -> unbroken (last l P :: l')).
  { clear. induction l as [|Q l IH]; intros P l' U; [exact U|]. rewrite last_shift. apply IH. cbn [app] in U. destruct U as (_ & U). exact U. }
  assert (LI : forall l P l' b, unbroken (P :: l ++ l') -> joined (fu_k u) (fun i => path_pos P i (pa_len P)) (l ++ l') -> linked (fu_k u) P l b).
  { clear. induction l as [|Q l IH]; intros P l' b U J; [exact I|]. cbn [app] in U, J. destruct U as (U1 & U2). cbn [joined] in J. destruct J as (J1 & J2). cbn [linked]. split; [exact J1|]. left. split; [exact U1|]. exact (IH _ _ _ U2 J2). }
  assert (EO : forall l P, end_of (fun i => path_pos P i (pa_len P)) l = fun i => path_pos (last l P) i (pa_len (last l P))).
  { clear. induction l as [|Q l IH]; intro P; [reflexivity|]. rewrite last_shift. cbn [end_of]. apply IH. }
  rewrite map_app in J2. cbn [app map] in UB. rewrite map_app in UB. destruct (JS _ _ _ J2) as (_ & J3). rewrite EO in J3. pose proof (US _ _ _ UB) as UB'.
  destruct (start_live X M fo u UO both both_carried w c1 q qs1 x0 L1 EX1 J1) as (it & its & FE & LV).
  { exists 0%nat. split; [lia|]. apply (LI _ _ _ _ UB J2). }
  { intros i Hi. unfold counted. rewrite P1. apply CL; auto. }
  set (c0 := c_start A M c1) in *.
  assert (HC0 : housed X fo w c0).
  { constructor.
    - apply (lv_ring _ _ _ _ _ _ _ _ _ _ _ _ _ _ _ _ LV).
    - rewrite (lv_st _ _ _ _ _ _ _ _ _ _ _ _ _ _ _ _ LV). reflexivity.
    - unfold c0, c_start. destruct (negb _); [|apply L1]. match goal with |- context [c_optimize A M ?d] => destruct (optimize_keep A M d) as (_ & _ & _ & _ & _ & _ & _ & -> & _) end. apply L1.
    - rewrite (lv_level _ _ _ _ _ _ _ _ _ _ _ _ _ _ _ _ LV). lia. }
  exists c0. split. { rewrite (run_app X M _ [OStart] c c1 R1). reflexivity. }
  assert (PM : map (fun it => it_P it) its = map fq_P qs1 /\ it_P it = fq_P q).
  { inversion FE as [|? ? ? ? E1 E2]; subst. split; [|apply E1]. clear - E2. induction E2 as [|? ? ? ? H _ IH]; cbn [map]; auto. rewrite IH, (proj1 H). reflexivity. }
  destruct PM as (PM & PH).
  assert (CA : Forall calms (it :: its)).
  { clear - FE EX1 TR UO. revert EX1. induction FE as [|a b la lb E _ IH]; intro EX1; constructor; inversion EX1; subst; auto. eapply both_calm; eauto. }
  do 8 eexists. constructor; [exact LV|exact HC0|exact CA|exact EX2| |]; rewrite PM, PH; auto.
Qed.
Lemma fed_apart c x0 qs1 qs2 : idle X c w fo -> Forall (move_ok X M fo u) (qs1 ++ qs2) -> Forall (slow u) (qs1 ++ qs2) -> qs1 <> [] -> (length qs1 <= 32)%nat ->
  joined (fu_k u) x0 (map fq_P (qs1 ++ qs2)) -> unbroken (map fq_P (qs1 ++ qs2)) ->
  (forall i, (i < 3)%nat -> Rabs (fu_k u i * x0 i - counted c i) <= 54/100) ->
  exists c0, c_run A M c (map (fun q => OAppend (fq_m q)) qs1 ++ [OStart]) = Ok (c0, []) /\
    forall ops, map fq_m qs2 = f_passed ops -> f_fed X M c0 ops -> apart_fed X M c0 ops.
Proof.
  intros ID MO SL NE HL JN UB CL. destruct (fed_start c x0 qs1 qs2 ID MO SL NE HL JN UB CL) as (c0 & R0 & pre & it & its & n & o & O & m0 & jn & [LV HC CA EX JE FE]).
  exists c0. split; [exact R0|]. intros ops EP FD a ms b k1 k2 k3 EQ E1 E2 E3. subst ops. apply (onway_apart ms b k1 k2 k3); auto. apply (onway_run a _ c0 k1); auto.
  right. exists pre, it, its, n, o, O, m0, jn, qs2. constructor; auto.
Qed.
End Fed.

(** *** The motions of [apart_example], the second handed over after a tick. *)
Definition has_room (A : arith sf sf) (M : machine sf) (m : smotion sf) : bool :=
  match c_tick A M (c_start A M (c_append A M (c_init A 375 (tickWidth A)) m)) with
  | Ok c => (match c_state c with ms_running => true | _ => false end && (c_level c <? 32)%N)%bool | UB => false end.
Lemma fed_one X M m1 m2 : has_room (sf_arith X) M m1 = true -> let A := sf_arith X in
  exists c0, c_run A M (c_init A 375 (tickWidth A)) [OAppend m1; OStart] = Ok (c0, []) /\ f_fed X M c0 [FTick; FPass m2; FTick; FTick].
Proof.
  unfold has_room. cbv zeta. generalize (c_init (sf_arith X) 375 (tickWidth (sf_arith X))). intros k E.
  exists (c_start (sf_arith X) M (c_append (sf_arith X) M k m1)). split; [reflexivity|].
  set (c0 := c_start (sf_arith X) M (c_append (sf_arith X) M k m1)) in *. clearbody c0.
  intros a m b c EQ R. destruct a as [|[|m3] a]; [discriminate EQ| |discriminate EQ]. cbn [app] in EQ. injection EQ as EQ.
  destruct a as [|x a]; [|exfalso; cbn [app] in EQ; injection EQ as _ EQ; destruct a as [|x1 [|x2 [|x3 a]]]; discriminate EQ].
  cbn [f_run] in R. destruct (c_tick (sf_arith X) M c0) as [c1|]; [|discriminate]. cbn [rbind] in R. inversion R; subst. apply andb_prop in E. destruct E as (E1 & E2).
  split; [destruct (c_state c); auto; discriminate|]. now apply N.ltb_lt.
Qed.
Lemma room_true X : has_room (sf_arith X) (cnc3axis (sf_arith X)) (fq_m (ex_slow1 X)) = true.
Proof. vm_compute. reflexivity. Qed.
Lemma fed_example X : let A := sf_arith X in let M := cnc3axis A in let k := c_init A 375 (tickWidth A) in
  unbroken (map fq_P [ex_slow1 X; ex_slow2 X]) /\
  exists c0, c_run A M k (map (fun q => OAppend (fq_m q)) [ex_slow1 X] ++ [OStart]) = Ok (c0, []) /\
    let ops := [FTick; FPass (fq_m (ex_slow2 X)); FTick; FTick] in map fq_m [ex_slow2 X] = f_passed ops /\ f_fed X M c0 ops.
Proof.
  cbv zeta. split.
  - cbn [map unbroken ex_slow1 ex_slow2 fq_P line_path]. split; [|exact I]. intros [|[|[|i]]] Hi _ _; try lia; unfold path_pos, linear_pos; cbn [line_path pa_arc pa_len pa_start pa_delta nth]; lra.
  - pose proof (fed_one X (cnc3axis (sf_arith X)) _ (fq_m (ex_slow2 X)) (room_true X)) as (c0 & E1 & E2). exists c0. split; [exact E1|]. split; [reflexivity|exact E2].
Qed.
