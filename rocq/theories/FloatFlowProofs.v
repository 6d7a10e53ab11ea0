(** binary32: motions handed over while others are executed. *)
Require Import List Arith NArith ZArith Bool Reals Lra Lia ZifyBool ZifyNat ZifyN.
From Coq Require Import Floats.SpecFloat.
From Flocq Require Import Zaux Raux Defs Generic_fmt FLT Float_prop Round_NE BinarySingleNaN.
From Verif Require Import Base BaseProofs EventModel StepModel StepSpec Num NumR NumSF MotionModel CtrlModel CtrlSpec CtrlRSpec CtrlProofs CtrlTrackProofs CtrlQueueProofs CtrlTimeProofs RingProofs.
From Verif Require Import ProfileSpec GeomSpec PlanProofs RunSpec FloatSpec FloatRunSpec FloatProofs FloatClockProofs FloatTrackProofs FloatErrProofs FloatPlanProofs FloatMoveProofs FloatRunProofs FloatStartProofs FloatJobProofs FloatFlowSpec.
Import ListNotations.
Open Scope R_scope.

Lemma set_planned X M fo o m q : fm_ok X M fo q -> fm_m q = m -> planned X M fo (mo_set (sf_arith X) M o m fo maximizeSpeed) q.
Proof.
  intros H <-. pose proof H as (H1 & ST). unfold mo_set. rewrite H1. apply limited_best. split; [exact H|]. cbn [mo_type mo_traj mo_prof]. split; [reflexivity|]. split; [reflexivity|].
  unfold base, kept, prof_setSpeed. destruct (limits (sf_arith X) M (traj_set (sf_arith X) (fm_m q))) as ((v & a) & d). repeat split.
Qed.
Lemma last_shift {T} (l : list T) : forall x d, last (x :: l) d = last l x.
Proof. induction l as [|y l IH]; intros x d; [reflexivity|]. change (last (x :: y :: l) d) with (last (y :: l) d). now rewrite !IH. Qed.
Lemma linked_snoc k Ps : forall P P' b, linked k P Ps b -> meets k (last Ps P) P' -> flush (last Ps P) P' -> linked k P (Ps ++ [P']) b.
Proof.
  induction Ps as [|Q Ps IH]; intros P P' b L ME FL; cbn [app linked] in *.
  - split; [exact ME|]. left. split; [exact FL|exact I].
  - destruct L as (L1 & L2). split; [exact L1|].
    rewrite last_shift in *. destruct L2 as [(L2 & L3)|L2]; [left; split; auto|right; destruct b; [contradiction|]; auto].
Qed.
Lemma ticks_only ops : f_passed ops = [] -> ops = repeat FTick (f_ticks ops).
Proof. induction ops as [|[|m] ops IH]; cbn; intro E; [reflexivity| |discriminate]. f_equal. auto. Qed.
Lemma repeat_split {T} (x : T) n : forall a b, repeat x n = a ++ b -> a = repeat x (length a) /\ (length a <= n)%nat.
Proof.
  induction n as [|n IH]; intros [|y a] b E; cbn in *; try discriminate; try (split; [reflexivity|lia]).
  injection E as <- E. destruct (IH a b E) as (E1 & E2). split; [f_equal; exact E1|lia].
Qed.
Lemma f_ticks_repeat n : f_ticks (repeat FTick n) = n.
Proof. induction n; cbn; auto. Qed.
Lemma f_passed_repeat n : f_passed (repeat FTick n) = [].
Proof. induction n; cbn; auto. Qed.
Lemma f_run_ticks X M n : forall c, f_run X M c (repeat FTick n) = ticks_run (sf_arith X) M n c.
Proof. induction n as [|n IH]; intro c; cbn [repeat f_run ticks_run]; [reflexivity|]. destruct (c_tick _ _ c); cbn [rbind]; auto. Qed.
Lemma f_run_app X M a : forall b c, f_run X M c (a ++ b) = rbind (f_run X M c a) (fun c1 => f_run X M c1 b).
Proof.
  induction a as [|[|m] a IH]; intros b c; cbn [app f_run]; [reflexivity| |apply IH]. destruct (c_tick _ _ c); cbn [rbind]; auto.
Qed.
(** A stopped controller stays as it is. *)
Lemma rest_tick X M (c : ctrl sf) : c_state c = ms_stopped -> c_tick (sf_arith X) M c = Ok (c_with_sig c (sg_next (c_sig c))).
Proof. intro E. unfold c_tick, c_isRunning. cbn [c_with_sig c_state]. rewrite E. reflexivity. Qed.
Lemma rest_ticks X M n : forall c : ctrl sf, c_state c = ms_stopped -> exists s, ticks_run (sf_arith X) M n c = Ok (c_with_sig c s).
Proof.
  induction n as [|n IH]; intros c E; cbn [ticks_run]; [exists (c_sig c); destruct c; reflexivity|]. rewrite (rest_tick _ _ _ E). cbn [rbind].
  destruct (IH (c_with_sig c (sg_next (c_sig c))) E) as (s & R). exists s. rewrite R. reflexivity.
Qed.
Lemma rest_fed X M ops : forall c, c_state c = ms_stopped -> f_fed X M c ops -> f_passed ops = [].
Proof.
  induction ops as [|[|m] ops IH]; intros c E F; [reflexivity| |]; cbn [f_passed].
  - apply (IH (c_with_sig c (sg_next (c_sig c))) E). intros a m b d EO R. apply (F (FTick :: a) m b d); [cbn; now rewrite EO|]. cbn [f_run]. rewrite (rest_tick _ _ _ E). exact R.
  - exfalso. destruct (F [] m ops c eq_refl eq_refl) as (F1 & _). congruence.
Qed.
Lemma tick_fed X M c c1 ops : f_fed X M c (FTick :: ops) -> c_tick (sf_arith X) M c = Ok c1 -> f_fed X M c1 ops.
Proof. intros F E a m b d EO R. apply (F (FTick :: a) m b d); [cbn; now rewrite EO|]. cbn [f_run]. rewrite E. exact R. Qed.
Lemma pass_fed X M c m ops : f_fed X M c (FPass m :: ops) -> f_fed X M (c_append (sf_arith X) M c m) ops.
Proof. intros F a m' b d EO R. apply (F (FPass m :: a) m' b d); [cbn; now rewrite EO|exact R]. Qed.

Section Flow.
Variables (X : sf_funs) (M : machine sf) (fo : sf) (u : funit).
Notation A := (sf_arith X).
Hypothesis UO : funit_ok X M u.
Variable fine : fmotion -> Prop.
Hypothesis FINE : forall q, fine q -> exists c, carried X M fo u (fq_m q) (fq_P q) (fq_l q) c.
Variable w : sf.
Hypothesis FW : float32 w (fu_W u).
Notation lives := (live X (fu_k u) (fu_B u) (fu_H u) (fu_W u) (fu_T u) w).
Notation done it q := (executes u (fi_leg it) (fq_P q) (fq_l q)).
Notation pas := (passes (fu_k u) (fu_B u) (fu_H u) (fu_W u)).
Notation arr := (arrives (fu_k u) (fu_B u) (fu_H u) (fu_W u) (fu_T u)).
Notation ends it its := (last (map (fun it => it_P it) its) (it_P it)).

Lemma append_live c pre it its n o O m0 jn q : lives c pre it its n o O m0 jn -> housed X fo w c -> (c_level c < 32)%N -> fine q ->
  meets (fu_k u) (ends it its) (fq_P q) -> flush (ends it its) (fq_P q) ->
  exists it1, done it1 q /\ lives (c_append A M c (fq_m q)) pre it (its ++ [it1]) n o O m0 jn /\ housed X fo w (c_append A M c (fq_m q)).
Proof.
  intros L HO LV FQ ME FL. destruct (FINE q FQ) as (cc & CD).
  destruct (ring_push A M c (fq_m q) (lv_ring _ _ _ _ _ _ _ _ _ _ _ _ _ _ _ _ L) LV) as (P1 & P2 & P3 & P4 & o1 & P5).
  destruct (append_keep A M c (fq_m q)) as (K1 & K2 & K3 & K4). rewrite (ho_fo _ _ _ _ HO) in P5.
  assert (SG : c_strategy c = maximizeSpeed) by (unfold c_strategy; rewrite (lv_state _ _ _ _ _ _ _ _ _ _ _ _ _ _ _ _ L); reflexivity). rewrite SG in P5.
  destruct (planned_frun X M fo u UO (mo_set A M o1 (fq_m q) fo maximizeSpeed) (fq_m q) (fq_P q) (fq_l q) cc CD) as (it1 & R1 & R2).
  { apply set_planned; [|reflexivity]. split; apply CD. }
  exists it1. split; [exact R2|].
  assert (HD : c_getHead A (c_append A M c (fq_m q)) = c_getHead A c).
  { destruct (ring_pop A c (lv_ring _ _ _ _ _ _ _ _ _ _ _ _ _ _ _ _ L)) as (E & _). { rewrite (lv_level _ _ _ _ _ _ _ _ _ _ _ _ _ _ _ _ L). lia. }
    destruct (ring_pop A _ P1) as (E' & _). { rewrite P2. lia. } rewrite P5, E in E'. cbn [app] in E'. now injection E' as <- _. }
  split.
  - destruct L as [LS LR LL LQ LC LO OG LN LT LP LCL (b & J1 & JB & LJN) LD LF]. constructor; auto; try congruence.
    + rewrite P2, LL, app_length. cbn [length]. lia.
    + rewrite P5. change (it :: its ++ [it1]) with ((it :: its) ++ [it1]). apply Forall2_app; auto.
    + rewrite HD. intros i Hi. unfold fpos. rewrite K2. apply LCL; auto.
    + exists b. split; [exact J1|]. split; [exact JB|]. rewrite map_app. cbn [map]. rewrite (proj1 R2). apply linked_snoc; auto.
  - destruct HO as [H1 H2 H3 H4]. constructor; auto; try congruence. rewrite P2. lia.
Qed.

Lemma passes_count x0 legs c n : pas x0 legs c (Z.of_nat n) -> under_way u x0 legs c n.
Proof. intros (H1 & t & H2 & H3 & H4). split; auto. exists t. rewrite <- INR_IZR_INZ in H3. auto. Qed.
Lemma arrives_count x0 legs c n : arr x0 legs c (Z.of_nat n) -> all_done u x0 legs c n.
Proof. intros (H1 & H2 & H3 & H4). rewrite <- INR_IZR_INZ in H4. split; auto. Qed.
Lemma last_snoc {T} (l : list T) x d : last (l ++ [x]) d = x.
Proof. induction l as [|y l IH]; [reflexivity|]. cbn [app]. destruct (l ++ [x]) eqn:E; [destruct l; discriminate|]. exact IH. Qed.

(** What is left of the run. *)
Definition remains (x0 : nat -> R) (legs : list leg) (c : ctrl sf) (ops : list fop) (m N : Z) : Prop :=
  forall n a b, ops ++ repeat FTick n = a ++ b -> exists ca, f_run X M c a = Ok ca /\
    if (m + Z.of_nat (f_ticks a) <? N)%Z then pas x0 legs ca (m + Z.of_nat (f_ticks a)) else arr x0 legs ca N /\ housed X fo w ca /\ length (c_pos ca) = 3%nat.
Lemma rest_remains x0 legs c ops N : c_state c = ms_stopped -> f_passed ops = [] -> arr x0 legs c N -> housed X fo w c -> length (c_pos c) = 3%nat -> remains x0 legs c ops N N.
Proof.
  intros ST NP AR HO LP n a b E. rewrite (ticks_only _ NP), <- repeat_app in E. destruct (repeat_split _ _ _ _ E) as (EA & _).
  set (k := length a) in *. clearbody k. subst a. rewrite f_run_ticks, f_ticks_repeat. destruct (rest_ticks X M k c ST) as (s & R). exists (c_with_sig c s). split; [exact R|].
  destruct (Z.ltb_spec (N + Z.of_nat k) N); [lia|]. split; [exact AR|]. split; [|exact LP]. destruct HO as [H1 H2 H3 H4]. constructor; auto.
Qed.
Lemma flow_live x0 ops : forall c pre it its n o O m0 jn qs, lives c pre it its n o O m0 jn -> housed X fo w c -> Forall (fun l => 0 < lg_T l) pre -> Forall fine qs ->
  map fq_m qs = f_passed ops -> joined (fu_k u) (fun i => path_pos (ends it its) i (pa_len (ends it its))) (map fq_P qs) -> unbroken (ends it its :: map fq_P qs) ->
  f_fed X M c ops ->
  exists its', Forall2 (fun it q => done it q) its' qs /\ exists N, (m0 + Z.of_N n < N)%Z /\ remains x0 (pre ++ map fi_leg (it :: its) ++ map fi_leg its') c ops (m0 + Z.of_N n) N.
Proof.
  destruct UO as [U1 (U2 & U2') U3 U4].
  assert (HKf : forall i, (i < 3)%nat -> float32 (nthF A (m_stepsPerMm M) i) (fu_k u i)) by (intros i Hi; apply U1; auto).
  assert (HK0 : forall i, (i < 3)%nat -> 0 <= fu_k u i) by (intros i Hi; apply Rlt_le, U1; auto).
  induction ops as [|[|m] ops IH]; intros c pre it its n o O m0 jn qs L HO FP FQ EP JN UB FD.
  - (* no more motions *)
    destruct qs; [|discriminate]. exists []. split; [constructor|]. cbn [map]. rewrite app_nil_r.
    destruct (run_live X M (fu_k u) (fu_B u) (fu_H u) (fu_W u) (fu_T u) w) with (x0 := x0) (z := left_ticks n its) (c := c) (pre := pre) (it := it) (its := its) (n := n) (o := o) (O := O) (m0 := m0) (jn := jn)
      as (N & c' & R1 & R2 & R3); auto.
    assert (N0 : N <> 0%nat). { intros ->. cbn in R1. injection R1 as <-. destruct R2 as (R2 & _). rewrite (lv_state _ _ _ _ _ _ _ _ _ _ _ _ _ _ _ _ L) in R2. discriminate. }
    exists (m0 + Z.of_N n + Z.of_nat N)%Z. split; [lia|]. intros n' a b E. cbn [app] in E. destruct (repeat_split _ _ _ _ E) as (EA & _).
    set (k := length a) in *. clearbody k. subst a. rewrite f_run_ticks, f_ticks_repeat. destruct (Nat.lt_ge_cases k N) as [LT|GE].
    + destruct (R3 k LT) as (cj & Q1 & Q2). exists cj. split; [exact Q1|]. destruct (Z.ltb_spec (m0 + Z.of_N n + Z.of_nat k) (m0 + Z.of_N n + Z.of_nat N)); [exact Q2|lia].
    + pose proof (rest_remains x0 _ c' [] _ (proj1 R2) eq_refl R2 (ticks_housed X M fo w N c c' HO R1) (ticks_pos X M N c c' (lv_pos _ _ _ _ _ _ _ _ _ _ _ _ _ _ _ _ L) R1)) as RR.
      destruct (RR (k - N)%nat (repeat FTick (k - N)) [] (eq_sym (app_nil_r _))) as (ca & Q1 & Q2). exists ca. split.
      * replace k with (N + (k - N))%nat by lia. rewrite <- f_run_ticks, repeat_app, f_run_app, f_run_ticks, R1. exact Q1.
      * destruct (Z.ltb_spec (m0 + Z.of_N n + Z.of_nat k) (m0 + Z.of_N n + Z.of_nat N)); [lia|]. rewrite f_ticks_repeat in Q2. destruct (Z.ltb_spec (m0 + Z.of_N n + Z.of_nat N + Z.of_nat (k - N)) (m0 + Z.of_N n + Z.of_nat N)); [lia|exact Q2].
  - (* a tick *)
    cbn [f_passed] in EP.
    destruct (tick_live X M (fu_k u) (fu_B u) (fu_H u) (fu_W u) (fu_T u) w) with (c := c) (pre := pre) (it := it) (its := its) (n := n) (o := o) (O := O) (m0 := m0) (jn := jn)
      as (c1 & E1 & OUT); auto.
    pose proof (tick_housed X M fo w c c1 HO E1) as HO1. pose proof (tick_fed X M c c1 ops FD E1) as FD1. assert (FT : Forall (fun l => 0 < lg_T l) (map fi_leg (it :: its))) by (eapply (live_T X) with (W := fu_W u) (Tmax := fu_T u); eauto).
    assert (NX : exists its', Forall2 (fun it q => done it q) its' qs /\ exists N, (m0 + Z.of_N n + 1 <= N)%Z /\ remains x0 (pre ++ map fi_leg (it :: its) ++ map fi_leg its') c1 ops (m0 + Z.of_N n + 1) N).
    { destruct OUT as [L1|[(it' & its' & o' & O' & -> & jn' & L1)|(-> & S1 & V1 & LP & P1 & T1)]].
      - destruct (IH c1 pre it its (n + 1)%N o O m0 jn qs) as (is & Q1 & N & Q2 & Q3); auto. exists is. split; auto. exists N.
        replace (m0 + Z.of_N (n + 1))%Z with (m0 + Z.of_N n + 1)%Z in * by lia. split; [lia|exact Q3].
      - assert (LE : ends it (it' :: its') = ends it' its') by (cbn [map]; apply last_shift).
        rewrite LE in *. assert (FP' : Forall (fun l => 0 < lg_T l) (pre ++ [fi_leg it])). { cbn [map] in FT. inversion FT; subst. apply Forall_app. split; auto. }
        destruct (IH c1 (pre ++ [fi_leg it]) it' its' 0%N o' O' (m0 + Z.of_N n + 1)%Z jn' qs) as (is & Q1 & N & Q2 & Q3); auto. exists is. split; auto. exists N.
        rewrite Z.add_0_r in *. split; [lia|]. rewrite <- app_assoc in Q3. exact Q3.
      - assert (NP : f_passed ops = []) by (eapply rest_fed; eauto). rewrite NP in EP. destruct qs; [|discriminate]. exists []. split; [constructor|]. exists (m0 + Z.of_N n + 1)%Z. split; [lia|].
        apply rest_remains; auto. destruct (lv_joined _ _ _ _ _ _ _ _ _ _ _ _ _ _ _ _ L) as (b & J1 & JB & _).
        split; auto. split; auto. cbn [map]. rewrite app_nil_r, map_app. cbn [map]. rewrite end_last, total_app, total_cons. change (total []) with 0. rewrite Rplus_0_r. split; [|exact T1].
        intros i Hi. eapply Rle_trans; [apply P1; auto|]. apply (reach_ok X M (fu_k u)); auto. lia. }
    destruct NX as (is & Q1 & N & Q2 & Q3). exists is. split; auto. exists N. split; [lia|]. intros n' [|y a] b E.
    + exists c. split; [reflexivity|]. cbn [f_ticks]. rewrite Z.add_0_r. destruct (Z.ltb_spec (m0 + Z.of_N n) N); [|lia].
      apply (live_passes X M) with (w := w) (Tmax := fu_T u) (o := o) (O := O) (jn := jn); auto.
      clear - Q1. induction Q1; cbn [map]; constructor; auto. apply H.
    + cbn [app] in E. injection E as <- E. destruct (Q3 n' a b E) as (ca & QA & QB). exists ca. split; [cbn [f_run]; rewrite E1; exact QA|].
      cbn [f_ticks]. replace (m0 + Z.of_N n + Z.of_nat (S (f_ticks a)))%Z with (m0 + Z.of_N n + 1 + Z.of_nat (f_ticks a))%Z by lia. exact QB.
  - (* a motion handed over *)
    cbn [f_passed] in EP. destruct qs as [|q qs]; [discriminate|]. cbn [map] in *. injection EP as <- EP. inversion FQ as [|? ? FQ1 FQ2]; subst.
    cbn [joined] in JN. destruct JN as (ME & JN). cbn [unbroken] in UB. destruct UB as (FL & UB).
    destruct (FD [] (fq_m q) ops c eq_refl eq_refl) as (_ & LV).
    destruct (append_live c pre it its n o O m0 jn q L HO LV FQ1 ME FL) as (it1 & D1 & L1 & HO1).
    assert (LE : ends it (its ++ [it1]) = fq_P q). { rewrite map_app. cbn [map]. rewrite last_snoc. apply D1. }
    destruct (IH (c_append A M c (fq_m q)) pre it (its ++ [it1]) n o O m0 jn qs) as (is & Q1 & N & Q2 & Q3); auto; try (rewrite LE; auto).
    { apply pass_fed; auto. }
    assert (EL : pre ++ map fi_leg (it :: its ++ [it1]) ++ map fi_leg is = pre ++ map fi_leg (it :: its) ++ map fi_leg (it1 :: is)). { cbn [map]. rewrite map_app. cbn [map app]. now rewrite <- app_assoc. }
    exists (it1 :: is). split; [constructor; auto|]. exists N. split; auto. intros n' [|y a] b E.
    + exists c. split; [reflexivity|]. cbn [f_ticks]. rewrite Z.add_0_r. destruct (Z.ltb_spec (m0 + Z.of_N n) N); [|lia].
      apply (live_passes X M) with (w := w) (Tmax := fu_T u) (o := o) (O := O) (jn := jn); auto.
      assert (F2 : Forall2 (fun it q => done it q) (it1 :: is) (q :: qs)) by (constructor; auto). revert F2. generalize (it1 :: is) (q :: qs). clear. intros l l' F2. induction F2; cbn [map]; constructor; auto. apply H.
    + cbn [app] in E. injection E as <- E. cbn [map] in EL. rewrite EL in Q3. destruct (Q3 n' a b E) as (ca & QA & QB). exists ca. split; [exact QA|exact QB].
Qed.

(** *** By calls *)
Lemma live_sig c g pre it its n o O m0 jn : lives c pre it its n o O m0 jn -> lives (c_with_sig c g) pre it its n o O m0 jn.
Proof. intros [LS LR LL LQ LC LO OG LN LT LP LCL LJ LD LF]. constructor; auto. Qed.
Lemma housed_sig c g : housed X fo w c -> housed X fo w (c_with_sig c g).
Proof. intros [H1 H2 H3 H4]. constructor; auto. Qed.
Lemma rest_calc k : forall c : ctrl sf, c_state c = ms_stopped -> length (c_pos c) = 3%nat -> (sg_maxTicks (c_sig c) < two32)%N -> (sg_ticks (c_sig c) = 0 \/ sg_ticks (c_sig c) < sg_maxTicks (c_sig c))%N ->
  (N.max 1 (sg_maxTicks (c_sig c)) <= sg_ticks (c_sig c) + N.of_nat k)%N -> k <> 0%nat ->
  exists g s, c_calc A M k c = Ok (Some (c_with_sig c g, s)) /\ sg_ticks g = 0%N /\ sg_maxTicks g = sg_maxTicks (c_sig c) /\ (sg_ticks (c_sig c) <= timeBefore s)%N.
Proof.
  induction k as [|k IH]; intros c ST LP MX TK KK NZ; [congruence|]. cbn [c_calc]. rewrite (rest_tick X M c ST). cbn [rbind].
  destruct (tick_ticks A M c _ LP (rest_tick X M c ST)) as (T & XX & L1). unfold add32, w32 in T. rewrite N.mod_small in T by (unfold two32 in *; lia). set (c1 := c_with_sig c (sg_next (c_sig c))) in *.
  destruct (sg_isModified (c_sig c1) || sg_isTimedOut (c_sig c1)) eqn:EM.
  - destruct (sg_output (c_sig c1)) as [g s] eqn:EO. unfold sg_output in EO. injection EO as <- <-. eexists _, _. split; [reflexivity|]. cbn [sg_ticks sg_maxTicks timeBefore]. split; [reflexivity|]. split; [exact XX|]. change (sg_ticks (c_sig c) <= sg_ticks (c_sig c1))%N. rewrite T. lia.
  - apply orb_false_elim in EM as [_ EM]. unfold sg_isTimedOut in EM. destruct (IH c1 ST L1) as (g & s & R1 & R2 & R3 & R4); try (rewrite ?XX, ?T in *; unfold two32 in *; lia). exists g, s. split; [rewrite R1; reflexivity|]. split; auto. split; [congruence|lia].
Qed.
Lemma calc_live k : forall c pre it its n o O m0 jn, lives c pre it its n o O m0 jn -> housed X fo w c -> Forall (fun l => 0 < lg_T l) pre ->
  (sg_maxTicks (c_sig c) < two32)%N -> (sg_ticks (c_sig c) = 0 \/ sg_ticks (c_sig c) < sg_maxTicks (c_sig c))%N ->
  (N.max 1 (sg_maxTicks (c_sig c)) <= sg_ticks (c_sig c) + N.of_nat k)%N -> k <> 0%nat ->
  exists c' s d, c_calc A M k c = Ok (Some (c', s)) /\ sg_ticks (c_sig c') = 0%N /\ sg_maxTicks (c_sig c') = sg_maxTicks (c_sig c) /\ length (c_pos c') = 3%nat /\ housed X fo w c' /\
    (0 < d)%Z /\ Z.of_N (timeBefore s) = (Z.of_N (sg_ticks (c_sig c)) + d)%Z /\
    ((exists pre' it' its' n' o' O' m0' jn', lives c' pre' it' its' n' o' O' m0' jn' /\ Forall (fun l => 0 < lg_T l) pre' /\
        pre' ++ map fi_leg (it' :: its') = pre ++ map fi_leg (it :: its) /\ ends it' its' = ends it its /\ (m0' + Z.of_N n' = m0 + Z.of_N n + d)%Z /\ (left_ticks n' its' < left_ticks n its)%N) \/
     (exists N, (m0 + Z.of_N n < N <= m0 + Z.of_N n + d)%Z /\ forall x0, arr x0 (pre ++ map fi_leg (it :: its)) c' N)).
Proof.
  destruct UO as [U1 (U2 & U2') U3 U4].
  assert (HKf : forall i, (i < 3)%nat -> float32 (nthF A (m_stepsPerMm M) i) (fu_k u i)) by (intros i Hi; apply U1; auto).
  assert (HK0 : forall i, (i < 3)%nat -> 0 <= fu_k u i) by (intros i Hi; apply Rlt_le, U1; auto).
  induction k as [|k IH]; intros c pre it its n o O m0 jn L HO FP MX TK KK NZ; [congruence|]. cbn [c_calc].
  destruct (tick_live X M (fu_k u) (fu_B u) (fu_H u) (fu_W u) (fu_T u) w) with (c := c) (pre := pre) (it := it) (its := its) (n := n) (o := o) (O := O) (m0 := m0) (jn := jn)
    as (c1 & E1 & OUT); auto.
  rewrite E1. cbn [rbind]. pose proof (tick_housed X M fo w c c1 HO E1) as HO1.
  destruct (tick_ticks A M c c1 (lv_pos _ _ _ _ _ _ _ _ _ _ _ _ _ _ _ _ L) E1) as (T & XX & L1). unfold add32, w32 in T. rewrite N.mod_small in T by (unfold two32 in *; lia).
  assert (FT : Forall (fun l => 0 < lg_T l) (map fi_leg (it :: its))) by (eapply (live_T X) with (W := fu_W u) (Tmax := fu_T u); eauto).
  assert (OUT' : (exists pre' it' its' n' o' O' m0' jn', lives c1 pre' it' its' n' o' O' m0' jn' /\ Forall (fun l => 0 < lg_T l) pre' /\
        pre' ++ map fi_leg (it' :: its') = pre ++ map fi_leg (it :: its) /\ ends it' its' = ends it its /\ (m0' + Z.of_N n' = m0 + Z.of_N n + 1)%Z /\ (left_ticks n' its' < left_ticks n its)%N) \/
      forall x0, arr x0 (pre ++ map fi_leg (it :: its)) c1 (m0 + Z.of_N n + 1)).
  { destruct OUT as [LV|[(it' & its' & o' & O' & -> & jn' & LV)|(-> & S1 & V1 & LP & P1 & T1)]].
    - left. exists pre, it, its, (n + 1)%N, o, O, m0, jn. do 4 (split; [auto|]). split; [lia|]. pose proof (lv_n _ _ _ _ _ _ _ _ _ _ _ _ _ _ _ _ L). unfold left_ticks. lia.
    - left. exists (pre ++ [fi_leg it]), it', its', 0%N, o', O', (m0 + Z.of_N n + 1)%Z, jn'. split; auto. split; [cbn [map] in FT; inversion FT; subst; apply Forall_app; split; auto|]. split; [now rewrite <- app_assoc|]. split; [cbn [map]; symmetry; apply last_shift|]. split; [lia|]. unfold left_ticks. cbn [length]. pose proof (lv_n _ _ _ _ _ _ _ _ _ _ _ _ _ _ _ _ L). lia.
    - right. intro x0. destruct (lv_joined _ _ _ _ _ _ _ _ _ _ _ _ _ _ _ _ L) as (b & J1 & JB & _).
      split; auto. split; auto. cbn [map]. rewrite map_app. cbn [map]. rewrite end_last, total_app, total_cons. change (total []) with 0. rewrite Rplus_0_r. split; [|exact T1].
      intros i Hi. eapply Rle_trans; [apply P1; auto|]. apply (reach_ok X M (fu_k u)); auto. lia. }
  clear OUT. destruct (sg_isModified (c_sig c1) || sg_isTimedOut (c_sig c1)) eqn:EM.
  - destruct (sg_output (c_sig c1)) as [g s] eqn:EO. unfold sg_output in EO. injection EO as <- <-. eexists _, _, 1%Z. split; [reflexivity|]. cbn [c_sig c_with_sig c_pos sg_ticks sg_maxTicks timeBefore].
    split; [reflexivity|]. split; [exact XX|]. split; [exact L1|]. split; [now apply housed_sig|]. split; [lia|]. split; [lia|].
    destruct OUT' as [(pre' & it' & its' & n' & o' & O' & m0' & jn' & Q1 & Q2)|Q]; [left|right].
    + exists pre', it', its', n', o', O', m0', jn'. split; [now apply live_sig|exact Q2].
    + exists (m0 + Z.of_N n + 1)%Z. split; [lia|exact Q].
  - apply orb_false_elim in EM as [_ EM]. unfold sg_isTimedOut in EM. destruct OUT' as [(pre' & it' & its' & n' & o' & O' & m0' & jn' & Q1 & Q2 & Q3 & Q4 & Q5 & Q6)|Q].
    + destruct (IH c1 pre' it' its' n' o' O' m0' jn' Q1 HO1 Q2) as (c' & s & d & R1 & R2 & R3 & R4 & R5 & R6 & R7 & R8); try (rewrite ?XX, ?T in *; unfold two32 in *; lia).
      exists c', s, (d + 1)%Z. split; [exact R1|]. split; [exact R2|]. split; [congruence|]. split; [exact R4|]. split; [exact R5|]. split; [lia|]. split; [lia|]. rewrite Q3, Q4, Q5 in R8.
      destruct R8 as [(pre2 & it2 & its2 & n2 & o2 & O2 & m2 & j2 & Z1 & Z2 & Z3 & Z4 & Z5 & Z6)|(N & Z1 & Z2)]; [left|right].
      * exists pre2, it2, its2, n2, o2, O2, m2, j2. do 4 (split; [assumption|]). lia.
      * exists N. split; [lia|exact Z2].
    + pose proof (Q (fun _ => 0)) as (S1 & _). destruct (rest_calc k c1 S1 L1) as (g & s & R1 & R2 & R3 & R4); try (rewrite ?XX, ?T in *; unfold two32 in *; lia).
      exists (c_with_sig c1 g), s, (Z.of_N (timeBefore s) - Z.of_N (sg_ticks (c_sig c)))%Z. cbn [c_sig c_with_sig c_pos]. split; [exact R1|]. split; [exact R2|]. split; [congruence|]. split; [exact L1|]. split; [now apply housed_sig|]. split; [lia|]. split; [lia|].
      right. exists (m0 + Z.of_N n + 1)%Z. split; [lia|exact Q].
Qed.

(** What is left of the run. *)
Definition remains_c (x0 : nat -> R) (legs : list leg) (c : ctrl sf) (l : list call) (m N : Z) : Prop :=
  forall n a b, l ++ repeat CCalc n = a ++ b -> exists ca recs, c_run A M c (map call_op a) = Ok (ca, recs) /\
    if (m + Z.of_N (sum_times recs) <? N)%Z then pas x0 legs ca (m + Z.of_N (sum_times recs)) else arr x0 legs ca N /\ housed X fo w ca /\ length (c_pos ca) = 3%nat.
Lemma calcs_only l : c_passed l = [] -> l = repeat CCalc (length l).
Proof. induction l as [|[m|] l IH]; cbn; intro E; [reflexivity|discriminate|]. f_equal. auto. Qed.
Lemma rest_calls mt k : forall c : ctrl sf, c_state c = ms_stopped -> length (c_pos c) = 3%nat -> sg_ticks (c_sig c) = 0%N -> sg_maxTicks (c_sig c) = mt -> (mt < two32)%N ->
  exists g recs, c_run A M c (map call_op (repeat CCalc k)) = Ok (c_with_sig c g, recs).
Proof.
  induction k as [|k IH]; intros c ST LP TK MX MT; cbn [repeat map c_run]; [exists (c_sig c), []; destruct c; reflexivity|]. cbn [call_op c_step].
  destruct (rest_calc (N.to_nat (N.max 1 (sg_maxTicks (c_sig c)))) c ST LP) as (g & s & R1 & R2 & R3 & _); try (rewrite ?MX; lia).
  rewrite R1. cbn [rbind]. destruct (IH (c_with_sig c g)) as (g2 & recs & E); auto; [cbn [c_sig c_with_sig]; congruence|]. exists g2, (s :: recs). rewrite E. reflexivity.
Qed.
Lemma rest_fed_c mt l : forall c, c_state c = ms_stopped -> length (c_pos c) = 3%nat -> sg_ticks (c_sig c) = 0%N -> sg_maxTicks (c_sig c) = mt -> (mt < two32)%N -> c_fed X M c l -> c_passed l = [].
Proof.
  induction l as [|[m|] l IH]; intros c ST LP TK MX MT F; [reflexivity| |]; cbn [c_passed].
  - exfalso. destruct (F [] m l c [] eq_refl eq_refl) as (F1 & _). congruence.
  - destruct (rest_calc (N.to_nat (N.max 1 (sg_maxTicks (c_sig c)))) c ST LP) as (g & s & R1 & R2 & R3 & _); try (rewrite ?MX; lia).
    apply (IH (c_with_sig c g)); auto; [cbn [c_sig c_with_sig]; congruence|]. intros a m b d recs EO R. apply (F (CCalc :: a) m b d (s :: recs)); [cbn; now rewrite EO|]. cbn [map call_op c_run c_step]. rewrite R1. cbn [rbind]. rewrite R. reflexivity.
Qed.
Lemma rest_remains_c mt x0 legs c l m N : c_state c = ms_stopped -> length (c_pos c) = 3%nat -> sg_ticks (c_sig c) = 0%N -> sg_maxTicks (c_sig c) = mt -> (mt < two32)%N -> c_passed l = [] ->
  arr x0 legs c N -> housed X fo w c -> (N <= m)%Z -> remains_c x0 legs c l m N.
Proof.
  intros ST LP TK MX MT NP AR HO LE n a b E. rewrite (calcs_only _ NP), <- repeat_app in E. destruct (repeat_split _ _ _ _ E) as (EA & _). set (k := length a) in *. clearbody k. subst a.
  destruct (rest_calls mt k c ST LP TK MX MT) as (g & recs & R). exists (c_with_sig c g), recs. split; [exact R|]. destruct (Z.ltb_spec (m + Z.of_N (sum_times recs)) N); [lia|]. split; [exact AR|]. split; [now apply housed_sig|exact LP].
Qed.
Lemma calls_live mt x0 : (mt < two32)%N -> forall l c pre it its n o O m0 jn qs, lives c pre it its n o O m0 jn -> housed X fo w c -> Forall (fun l => 0 < lg_T l) pre -> sg_ticks (c_sig c) = 0%N -> sg_maxTicks (c_sig c) = mt ->
  Forall fine qs -> map fq_m qs = c_passed l -> joined (fu_k u) (fun i => path_pos (ends it its) i (pa_len (ends it its))) (map fq_P qs) -> unbroken (ends it its :: map fq_P qs) -> c_fed X M c l ->
  exists its', Forall2 (fun it q => done it q) its' qs /\ exists N, (m0 + Z.of_N n < N)%Z /\ remains_c x0 (pre ++ map fi_leg (it :: its) ++ map fi_leg its') c l (m0 + Z.of_N n) N.
Proof.
  intros MT. pose proof UO as [U1 (U2 & U2') U3 U4].
  assert (HKf : forall i, (i < 3)%nat -> float32 (nthF A (m_stepsPerMm M) i) (fu_k u i)) by (intros i Hi; apply U1; auto).
  assert (HK0 : forall i, (i < 3)%nat -> 0 <= fu_k u i) by (intros i Hi; apply Rlt_le, U1; auto).
  (* one more computation of the signals *)
  assert (STEP : forall l qs c pre it its n o O m0 jn, (forall c pre it its' n' o O m0 jn, (left_ticks n' its' < left_ticks n its)%N -> lives c pre it its' n' o O m0 jn -> housed X fo w c -> Forall (fun l => 0 < lg_T l) pre -> sg_ticks (c_sig c) = 0%N -> sg_maxTicks (c_sig c) = mt ->
      joined (fu_k u) (fun i => path_pos (ends it its') i (pa_len (ends it its'))) (map fq_P qs) -> unbroken (ends it its' :: map fq_P qs) -> c_fed X M c l ->
      exists is, Forall2 (fun it q => done it q) is qs /\ exists N, (m0 + Z.of_N n' < N)%Z /\ remains_c x0 (pre ++ map fi_leg (it :: its') ++ map fi_leg is) c l (m0 + Z.of_N n') N) ->
    map fq_m qs = c_passed l -> lives c pre it its n o O m0 jn -> housed X fo w c -> Forall (fun l => 0 < lg_T l) pre -> sg_ticks (c_sig c) = 0%N -> sg_maxTicks (c_sig c) = mt ->
      joined (fu_k u) (fun i => path_pos (ends it its) i (pa_len (ends it its))) (map fq_P qs) -> unbroken (ends it its :: map fq_P qs) -> c_fed X M c (CCalc :: l) ->
      exists its', Forall2 (fun it q => done it q) its' qs /\ exists N, (m0 + Z.of_N n < N)%Z /\ remains_c x0 (pre ++ map fi_leg (it :: its) ++ map fi_leg its') c (CCalc :: l) (m0 + Z.of_N n) N).
  { intros l qs c pre it its n o O m0 jn IH EP L HO FP TK MX JN UB FD.
    destruct (calc_live (N.to_nat (N.max 1 (sg_maxTicks (c_sig c)))) c pre it its n o O m0 jn L HO FP) as (c1 & s & d & R1 & R2 & R3 & R4 & R5 & R6 & R7 & R8); try (rewrite ?MX; lia).
    rewrite TK, Z.add_0_l in R7.
    assert (FD1 : c_fed X M c1 l). { intros a m b c2 recs EO R. apply (FD (CCalc :: a) m b c2 (s :: recs)); [cbn; now rewrite EO|]. cbn [map call_op c_run c_step]. rewrite R1. cbn [rbind]. rewrite R. reflexivity. }
    assert (NX : exists its', Forall2 (fun it q => done it q) its' qs /\ exists N, (m0 + Z.of_N n < N)%Z /\ remains_c x0 (pre ++ map fi_leg (it :: its) ++ map fi_leg its') c1 l (m0 + Z.of_N n + d) N).
    { destruct R8 as [(pre' & it' & its' & n' & o' & O' & m0' & jn' & Z1 & Z2 & Z3 & Z4 & Z5 & Z6)|(N & Z1 & Z2)].
      - rewrite <- Z4 in *. destruct (IH c1 pre' it' its' n' o' O' m0' jn' Z6 Z1 R5 Z2 R2) as (is & Q1 & N & Q2 & Q3); auto; [congruence|]. exists is. split; auto. exists N. rewrite Z5 in *. split; [lia|].
        rewrite app_assoc, Z3, <- app_assoc in Q3. exact Q3.
      - pose proof (Z2 x0) as (S1 & _). assert (NP : c_passed l = []) by (apply (rest_fed_c mt l c1); auto; congruence). rewrite NP in EP. destruct qs; [|discriminate]. exists []. split; [constructor|]. exists N. split; [lia|].
        cbn [map]. rewrite app_nil_r. apply (rest_remains_c mt); auto; try congruence. lia. }
    destruct NX as (is & Q1 & N & Q2 & Q3). exists is. split; auto. exists N. split; [lia|]. intros n' [|y a] b E.
    - exists c, []. split; [reflexivity|]. cbn [sum_times fold_right Z.of_N]. rewrite Z.add_0_r. destruct (Z.ltb_spec (m0 + Z.of_N n) N); [|lia].
      apply (live_passes X M) with (w := w) (Tmax := fu_T u) (o := o) (O := O) (jn := jn); auto.
      clear - Q1. induction Q1; cbn [map]; constructor; auto. apply H.
    - cbn [app] in E. injection E as <- E. destruct (Q3 n' a b E) as (ca & recs & QA & QB). exists ca, (s :: recs). split; [cbn [map call_op c_run c_step]; rewrite R1; cbn [rbind]; rewrite QA; reflexivity|].
      cbn [sum_times fold_right]. change (fold_right (fun s n => (timeBefore s + n)%N) 0%N recs) with (sum_times recs). replace (m0 + Z.of_N n + Z.of_N (timeBefore s + sum_times recs))%Z with (m0 + Z.of_N n + d + Z.of_N (sum_times recs))%Z by lia. exact QB. }
  (* the motions known are done in the end *)
  assert (FIN : forall z c pre it its n o O m0 jn, z = left_ticks n its -> lives c pre it its n o O m0 jn -> housed X fo w c -> Forall (fun l => 0 < lg_T l) pre -> sg_ticks (c_sig c) = 0%N -> sg_maxTicks (c_sig c) = mt ->
    exists N, (m0 + Z.of_N n < N)%Z /\ remains_c x0 (pre ++ map fi_leg (it :: its)) c [] (m0 + Z.of_N n) N).
  { induction z as [z IHz] using (well_founded_induction N.lt_wf_0). intros c pre it its n o O m0 jn EZ L HO FP TK MX. subst z.
    destruct (STEP [] [] c pre it its n o O m0 jn) as (is & Q1 & N & Q2 & Q3); auto.
    - intros c' pre' it' its' n' o' O' m0' jn' LT L' HO' FP' TK' MX' _ _ _. exists []. split; [constructor|]. cbn [map]. rewrite app_nil_r. eapply IHz; eauto.
    - exact I.
    - exact I.
    - intros [|[m0''|] a] m b c' recs E _; try discriminate. cbn in E. injection E as E. destruct a; discriminate.
    - inversion Q1; subst. cbn [map] in Q3. rewrite app_nil_r in Q3. exists N. split; auto. intros [|k] a b E.
      + destruct a; [|discriminate]. apply (Q3 0%nat [] [CCalc]). reflexivity.
      + apply (Q3 k a b). exact E. }
  induction l as [|[m|] l IH]; intros c pre it its n o O m0 jn qs L HO FP TK MX FQ EP JN UB FD.
  - destruct qs; [|discriminate]. exists []. split; [constructor|]. cbn [map]. rewrite app_nil_r. eapply FIN; eauto.
  - cbn [c_passed] in EP. destruct qs as [|q qs]; [discriminate|]. cbn [map] in EP, JN, UB. injection EP as <- EP. inversion FQ as [|? ? FQ1 FQ2]; subst.
    cbn [joined] in JN. destruct JN as (ME & JN). destruct UB as (FL & UB).
    destruct (FD [] (fq_m q) l c [] eq_refl eq_refl) as (_ & LV).
    destruct (append_live c pre it its n o O m0 jn q L HO LV FQ1 ME FL) as (it1 & D1 & L1 & HO1). destruct (append_keep A M c (fq_m q)) as (K1 & _).
    assert (LE : ends it (its ++ [it1]) = fq_P q). { rewrite map_app. cbn [map]. rewrite last_snoc. apply D1. }
    destruct (IH (c_append A M c (fq_m q)) pre it (its ++ [it1]) n o O m0 jn qs) as (is & Q1 & N & Q2 & Q3); auto; try (rewrite LE; auto); try congruence.
    { intros a m' b d recs EO R. apply (FD (CPass (fq_m q) :: a) m' b d recs); [cbn; now rewrite EO|]. cbn [map call_op c_run c_step rbind]. rewrite R. reflexivity. }
    assert (EL : pre ++ map fi_leg (it :: its ++ [it1]) ++ map fi_leg is = pre ++ map fi_leg (it :: its) ++ map fi_leg (it1 :: is)). { cbn [map]. rewrite map_app. cbn [map app]. now rewrite <- app_assoc. }
    exists (it1 :: is). split; [constructor; auto|]. exists N. split; auto. rewrite <- EL. intros n' [|y a] b E.
    + exists c, []. split; [reflexivity|]. cbn [sum_times fold_right Z.of_N]. rewrite Z.add_0_r. destruct (Z.ltb_spec (m0 + Z.of_N n) N); [|lia]. rewrite EL.
      apply (live_passes X M) with (w := w) (Tmax := fu_T u) (o := o) (O := O) (jn := jn); auto.
      assert (F2 : Forall2 (fun it q => done it q) (it1 :: is) (q :: qs)) by (constructor; auto). revert F2. generalize (it1 :: is) (q :: qs). clear. intros l l' F2. induction F2; cbn [map]; constructor; auto. apply H.
    + cbn [app] in E. injection E as <- E. destruct (Q3 n' a b E) as (ca & recs & QA & QB). exists ca, recs. split; [cbn [map call_op c_run c_step rbind]; rewrite QA; reflexivity|exact QB].
  - cbn [c_passed] in EP. eapply (STEP l qs); eauto.
Qed.

(** *** A whole job *)
Lemma appends_sig ms : forall (c c1 : ctrl sf) recs, c_run A M c (map (fun q => OAppend (fq_m q)) ms) = Ok (c1, recs) -> c_sig c1 = c_sig c.
Proof.
  induction ms as [|m ms IH]; intros c c1 recs E; cbn [map c_run c_step rbind] in E; [now inversion E|]. destruct (c_run A M (c_append A M c (fq_m m)) _) as [[c2 r]|] eqn:E2; cbn in E; [|discriminate]. injection E as <- _.
  rewrite (IH _ _ _ E2). apply append_keep.
Qed.
Lemma flow_any c x0 qs1 qs2 : idle X c w fo -> Forall fine (qs1 ++ qs2) -> qs1 <> [] -> (length qs1 <= 32)%nat -> joined (fu_k u) x0 (map fq_P (qs1 ++ qs2)) -> unbroken (map fq_P (qs1 ++ qs2)) ->
  (forall i, (i < 3)%nat -> Rabs (fu_k u i * x0 i - counted c i) <= 54/100) ->
  exists c0, c_run A M c (map (fun q => OAppend (fq_m q)) qs1 ++ [OStart]) = Ok (c0, []) /\
    (forall ops, map fq_m qs2 = f_passed ops -> f_fed X M c0 ops ->
    exists legs N, Forall2 (fun g q => executes u g (fq_P q) (fq_l q)) legs (qs1 ++ qs2) /\ followed X M u w fo c0 ops x0 legs N) /\
    (sg_ticks (c_sig c) = 0%N -> (sg_maxTicks (c_sig c) < two32)%N -> forall l, map fq_m qs2 = c_passed l -> c_fed X M c0 l ->
    exists legs N, Forall2 (fun g q => executes u g (fq_P q) (fq_l q)) legs (qs1 ++ qs2) /\ called X M u w fo c0 l x0 legs N).
Proof.
  intros ID EX NE HL JN UB CL. apply Forall_app in EX. destruct EX as (EX1 & EX2).
  destruct (appends_floaded X M fo u fine FINE w qs1 c [] (idle_floaded X M fo w c ID) EX1 HL) as (c1 & R1 & L1 & P1). cbn [app] in L1.
  destruct qs1 as [|q qs1]; [congruence|]. cbn [app map joined] in JN. destruct JN as (J1 & J2).
  assert (JS : forall l l' x, joined (fu_k u) x (l ++ l') -> joined (fu_k u) x l /\ joined (fu_k u) (end_of x l) l').
  { clear. induction l as [|P l IH]; intros l' x J; cbn [app joined end_of] in *; [split; [exact I|exact J]|]. destruct J as (J1 & J2). destruct (IH _ _ J2). auto. }
  assert (US : forall l P l', unbroken (P :: l ++ l') -> unbroken (last l P :: l')).
  { clear. induction l as [|Q l IH]; intros P l' U; [exact U|]. rewrite last_shift. apply IH. cbn [app] in U. destruct U as (_ & U). exact U. }
  assert (LI : forall l P l' b, unbroken (P :: l ++ l') -> joined (fu_k u) (fun i => path_pos P i (pa_len P)) (l ++ l') -> linked (fu_k u) P l b).
  { clear. induction l as [|Q l IH]; intros P l' b U J; [exact I|]. cbn [app] in U, J. destruct U as (U1 & U2). cbn [joined] in J. destruct J as (J1 & J2). cbn [linked]. split; [exact J1|]. left. split; [exact U1|]. exact (IH _ _ _ U2 J2). }
  assert (EO : forall l P, end_of (fun i => path_pos P i (pa_len P)) l = fun i => path_pos (last l P) i (pa_len (last l P))).
  { clear. induction l as [|Q l IH]; intro P; [reflexivity|]. rewrite last_shift. cbn [end_of]. apply IH. }
  rewrite map_app in J2. cbn [app map] in UB. rewrite map_app in UB. destruct (JS _ _ _ J2) as (_ & J3). rewrite EO in J3. pose proof (US _ _ _ UB) as UB'.
  destruct (start_live X M fo u UO fine FINE w c1 q qs1 x0 L1 EX1 J1) as (it & its & FE & LV).
  { exists 0%nat. split; [lia|]. apply (LI _ _ _ _ UB J2). }
  { intros i Hi. unfold counted. rewrite P1. apply CL; auto. }
  set (c0 := c_start A M c1) in *.
  assert (HC0 : housed X fo w c0).
  { constructor.
    - apply (lv_ring _ _ _ _ _ _ _ _ _ _ _ _ _ _ _ _ LV).
    - rewrite (lv_st _ _ _ _ _ _ _ _ _ _ _ _ _ _ _ _ LV). reflexivity.
    - unfold c0, c_start. destruct (negb _); [|apply L1]. match goal with |- context [c_optimize A M ?d] => destruct (optimize_keep A M d) as (_ & _ & _ & _ & _ & _ & _ & -> & _) end. apply L1.
    - rewrite (lv_level _ _ _ _ _ _ _ _ _ _ _ _ _ _ _ _ LV). lia. }
  exists c0. split. { rewrite (run_app X M _ [OStart] c c1 R1). reflexivity. }
  assert (PM : map (fun it => it_P it) its = map fq_P qs1 /\ it_P it = fq_P q).
  { inversion FE as [|? ? ? ? E1 E2]; subst. split; [|apply E1]. clear - E2. induction E2 as [|? ? ? ? H _ IH]; cbn [map]; auto. rewrite IH, (proj1 H). reflexivity. }
  destruct PM as (PM & PH).
  assert (SG : c_sig c0 = c_sig c).
  { rewrite <- (appends_sig _ _ _ _ R1). unfold c0, c_start. destruct (negb _); [|reflexivity]. match goal with |- context [c_optimize A M ?d] => destruct (optimize_keep A M d) as (-> & _) end. reflexivity. }
  assert (DN : forall is, Forall2 (fun it q => done it q) is qs2 -> Forall2 (fun g q => executes u g (fq_P q) (fq_l q)) (map fi_leg (it :: its) ++ map fi_leg is) ((q :: qs1) ++ qs2)).
  { intros is Q1. assert (F2 : Forall2 (fun it q => done it q) ((it :: its) ++ is) ((q :: qs1) ++ qs2)) by (apply Forall2_app; auto). rewrite <- map_app. clear - F2. induction F2; cbn [map]; auto. }
  split.
  2:{ intros G1 G2 l EP FD. destruct (calls_live (sg_maxTicks (c_sig c)) x0 G2 l c0 [] it its 0%N (nofZ (aF A) 0) 0 0%Z 1%nat qs2) as (is & Q1 & N & Q2 & Q3); auto; try (rewrite PM, PH; auto); try congruence.
    cbn [app] in Q3. exists (map fi_leg (it :: its) ++ map fi_leg is), (Z.to_nat N). split; [auto|].
    intros n a b E. destruct (Q3 n a b E) as (ca & recs & QA & QB). exists ca, recs. split; [exact QA|]. cbv zeta. change (0 + Z.of_N 0)%Z with 0%Z in *. rewrite Z.add_0_l in QB.
    destruct (Z.ltb_spec (Z.of_N (sum_times recs)) N) as [LT|GE].
    - destruct (Nat.ltb_spec (N.to_nat (sum_times recs)) (Z.to_nat N)); [|lia]. apply passes_count. rewrite N_nat_Z. exact QB.
    - destruct (Nat.ltb_spec (N.to_nat (sum_times recs)) (Z.to_nat N)); [lia|]. destruct QB as (QB & [(W1 & W2 & W3) W4 W5 W6] & QC). rewrite <- (Z2Nat.id N) in QB by lia.
      split; [apply arrives_count; exact QB|]. destruct QB as (B1 & B2 & _). destruct (W6 B2) as (_ & W7). constructor; auto. }
  intros ops EP FD.
  destruct (flow_live x0 ops c0 [] it its 0%N (nofZ (aF A) 0) 0 0%Z 1%nat qs2) as (is & Q1 & N & Q2 & Q3); auto; try (rewrite PM, PH; auto).
  cbn [app] in Q3. exists (map fi_leg (it :: its) ++ map fi_leg is), (Z.to_nat N). split.
  { auto. }
  intros n a b E. destruct (Q3 n a b E) as (ca & QA & QB). exists ca. split; [exact QA|]. change (0 + Z.of_N 0)%Z with 0%Z in *. rewrite Z.add_0_l in QB.
  destruct (Z.ltb_spec (Z.of_nat (f_ticks a)) N) as [LT|GE].
  - destruct (Nat.ltb_spec (f_ticks a) (Z.to_nat N)); [|lia]. apply passes_count. exact QB.
  - destruct (Nat.ltb_spec (f_ticks a) (Z.to_nat N)); [lia|]. destruct QB as (QB & [(G1 & G2 & G3) G4 G5 G6] & QC). rewrite <- (Z2Nat.id N) in QB by lia.
    split; [apply arrives_count; exact QB|]. destruct QB as (B1 & B2 & _). destruct (G6 B2) as (_ & G7). constructor; auto.
Qed.
End Flow.
