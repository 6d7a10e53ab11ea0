(** Steps apart reach the motors as pulses of their own. *)
Require Import List Arith NArith ZArith Bool Reals Lia ZifyBool ZifyNat ZifyN.
From Verif Require Import Base BaseProofs StepModel StepSpec StepSignalsProofs Num NumSF MotionModel CtrlModel CtrlSpec CtrlProofs RunSpec FloatSpec FloatRunSpec FloatArcSpec FloatJobProofs GapSpec GapProofs.
Import ListNotations.

Section Any.
Context {D F : Type} (A : arith D F) (M : machine F).
(** *** Ticks do not depend on the signals. *)
Definition same (r : res (ctrl F)) (c' : ctrl F) : Prop := exists c1 h, r = Ok c1 /\ c' = c_with_sig c1 h.
Lemma moveAxis_same o d c g i c' : c_moveAxis A M o d (c_with_sig c g) i = Ok c' -> same (c_moveAxis A M o d c i) c'.
Proof.
  unfold c_moveAxis. destruct (mo_isMoving A o i); [|intro E; inversion E; subst; exists c, g; auto]. unfold c_trackAxis, c_decide, rbind.
  change (needStepForward A M (c_with_sig c g) i (mo_position A o i d)) with (needStepForward A M c i (mo_position A o i d)).
  change (needStepBackward A M (c_with_sig c g) i (mo_position A o i d)) with (needStepBackward A M c i (mo_position A o i d)).
  destruct (needStepForward A M c i (mo_position A o i d)) as [[]|]; [| |discriminate].
  - unfold c_stepAxis. cbn [c_with_sig c_pos c_sig]. destruct (int32_ok _); [|discriminate]. intro E; inversion E; subst. eexists _, _. split; reflexivity.
  - destruct (needStepBackward A M c i (mo_position A o i d)); [|intro E; inversion E; subst; exists c, g; auto].
    unfold c_stepAxis. cbn [c_with_sig c_pos c_sig]. destruct (int32_ok _); [|discriminate]. intro E; inversion E; subst. eexists _, _. split; reflexivity.
Qed.
Lemma moveAxes_same o d l : forall c g c', c_moveAxes A M o d (c_with_sig c g) l = Ok c' -> same (c_moveAxes A M o d c l) c'.
Proof.
  induction l as [|i l IH]; intros c g c' E; cbn [c_moveAxes] in *; [inversion E; subst; exists c, g; auto|].
  destruct (c_moveAxis A M o d (c_with_sig c g) i) as [c1|] eqn:E1; [|discriminate]. cbn [rbind] in E.
  destruct (moveAxis_same _ _ _ _ _ _ E1) as (c2 & h & -> & ->). cbn [rbind]. eauto.
Qed.
Lemma advance_same n : forall c g c', c_advance A M n (c_with_sig c g) = Ok c' -> same (c_advance A M n c) c'.
Proof.
  induction n as [|n IH]; intros c g c' E; cbn [c_advance] in *;
    change (c_st (c_with_sig c g)) with (c_st c) in E; change (c_getHead A (c_with_sig c g)) with (c_getHead A c) in E; change (c_level (c_with_sig c g)) with (c_level c) in E;
    (destruct (st_isBeyond _ _ _); [|exact (moveAxes_same _ _ _ _ _ _ E)]); (destruct (1 <? c_level c)%N; [|inversion E; subst; eexists _, g; split; reflexivity]).
  - discriminate.
  - cbv zeta in *. match goal with |- same (c_advance A M n ?d) c' => exact (IH d g c' E) end.
Qed.
Lemma tick_same c g c' : c_tick A M (c_with_sig c g) = Ok c' -> same (c_tick A M c) c'.
Proof.
  unfold c_tick. cbv zeta. set (c1 := c_with_sig c (sg_next (c_sig c))).
  change (c_with_sig (c_with_sig c g) (sg_next (c_sig (c_with_sig c g)))) with (c_with_sig c1 (sg_next g)).
  change (c_isRunning (c_with_sig c1 (sg_next g))) with (c_isRunning c1).
  destruct (c_isRunning c1); [|intro E; inversion E; subst; eexists _, (sg_next g); split; reflexivity].
  change (c_with_st (c_with_sig c1 (sg_next g)) (st_next A (c_st (c_with_sig c1 (sg_next g))))) with (c_with_sig (c_with_st c1 (st_next A (c_st c1))) (sg_next g)).
  set (c2 := c_with_st c1 (st_next A (c_st c1))). change (c_st (c_with_sig c2 (sg_next g))) with (c_st c2). change (c_getHead A (c_with_sig c2 (sg_next g))) with (c_getHead A c2).
  destruct (st_isBeyond _ _ _); intro E; match goal with |- same (c_advance A M ?n ?d) c' => exact (advance_same n d (sg_next g) c' E) end.
Qed.
Lemma ticks_same n : forall c g c', ticks_run A M n (c_with_sig c g) = Ok c' -> same (ticks_run A M n c) c'.
Proof.
  induction n as [|n IH]; intros c g c' E; cbn [ticks_run] in *; [inversion E; subst; exists c, g; auto|].
  destruct (c_tick A M (c_with_sig c g)) as [c1|] eqn:E1; [|discriminate]. cbn [rbind] in E.
  destruct (tick_same _ _ _ E1) as (c2 & h & -> & ->). cbn [rbind]. eauto.
Qed.

(** *** Commands of consecutive ticks. *)
Definition apart (c0 : ctrl F) : Prop :=
  forall (j : nat) c1 c2 c3, ticks_run A M j c0 = Ok c1 -> c_tick A M c1 = Ok c2 -> c_tick A M c2 = Ok c3 ->
  forall i, (i < 3)%nat -> nth i (c_pos c2) 0%Z = nth i (c_pos c1) 0%Z \/ nth i (c_pos c3) 0%Z = nth i (c_pos c2) 0%Z.
(** The commands of the previous tick were [p]. *)
Definition after (p : list (option dir)) (c : ctrl F) : Prop :=
  apart c /\ forall c1, c_tick A M c = Ok c1 -> forall i, (i < 3)%nat -> is_cmd (nth i p None) = true -> nth i (c_pos c1) 0%Z = nth i (c_pos c) 0%Z.
Lemma apart_sig c g : apart c -> apart (c_with_sig c g).
Proof.
  intros H j c1 c2 c3 E1 E2 E3 i Hi. destruct (ticks_same _ _ _ _ E1) as (d1 & h1 & Q1 & ->).
  destruct (tick_same _ _ _ E2) as (d2 & h2 & Q2 & ->). destruct (tick_same _ _ _ E3) as (d3 & h3 & Q3 & ->). exact (H j d1 d2 d3 Q1 Q2 Q3 i Hi).
Qed.
Lemma after_sig p c g : after p c -> after p (c_with_sig c g).
Proof.
  intros [H1 H2]. split; [apply apart_sig; auto|]. intros c1 E i Hi C. destruct (tick_same _ _ _ E) as (d & h & Q & ->). exact (H2 d Q i Hi C).
Qed.
Lemma is_cmd_zdir x : is_cmd x = true -> zdir x <> 0%Z.
Proof. destruct x as [[]|]; cbn; intro; [lia|lia|discriminate]. Qed.
Lemma after_tick p c c1 cs : length (c_pos c) = 3%nat -> after p c -> c_tick A M c = Ok c1 -> c_pos c1 = add_cmds (c_pos c) cs ->
  after cs c1 /\ forall i, (i < 3)%nat -> ~ (is_cmd (nth i p None) = true /\ is_cmd (nth i cs None) = true).
Proof.
  intros HL [H1 H2] E P. split; [split|].
  - intros j a1 a2 a3 E1 E2 E3. apply (H1 (S j) a1 a2 a3); auto. cbn [ticks_run]. rewrite E. exact E1.
  - intros c2 E2 i Hi C. destruct (H1 O c c1 c2 eq_refl E E2 i Hi) as [Q|Q]; [|exact Q]. exfalso.
    rewrite P, add_cmds_nth in Q by auto. apply is_cmd_zdir in C. lia.
  - intros i Hi [C1 C2]. pose proof (H2 c1 E i Hi C1) as Q. rewrite P, add_cmds_nth in Q by auto. apply is_cmd_zdir in C2. lia.
Qed.
Lemma last_cons {T} (l : list T) : forall x y, last (y :: l) x = last l y.
Proof. induction l as [|z l IH]; intros x y; [reflexivity|]. transitivity (last l z); [exact (IH x z)|symmetry; exact (IH y z)]. Qed.
Lemma spaced_app x l r : spaced (x :: l) -> spaced (last l x :: r) -> spaced (x :: l ++ r).
Proof.
  revert x. induction l as [|y l IH]; intros x S1 S2; [exact S2|]. destruct S1 as [S1 S1']. cbn [app]. split; [exact S1|].
  apply IH; [exact S1'|]. rewrite <- (last_cons l x y). exact S2.
Qed.
Lemma last_cmd a css p : nth a (last css p) None = last (cmd_at a css) (nth a p None).
Proof. induction css as [|c css IH]; [reflexivity|]. destruct css; [reflexivity|exact IH]. Qed.
Lemma calc_spaced fuel : forall c c' s p, length (c_pos c) = 3%nat -> after p c -> c_calc A M fuel c = Ok (Some (c', s)) ->
  exists css, fst (fst (sg_run (c_sig c) css)) = c_sig c' /\ snd (sg_run (c_sig c) css) = [s] /\ length (c_pos c') = 3%nat /\
    (forall a, (a < 3)%nat -> nth a (c_pos c') 0%Z = (nth a (c_pos c) 0 + net (cmd_at a css))%Z) /\
    (forall a, (a < 3)%nat -> spaced (cmd_at a (p :: css))) /\ after (last css p) c'.
Proof.
  induction fuel; intros c c' s p HL J H; cbn [c_calc] in H; [discriminate|].
  unfold rbind in H. destruct (c_tick A M c) as [c1|] eqn:E; [|discriminate].
  destruct (tick_cmds A M _ _ HL E) as (cs & Lcs & S1 & P1). destruct (after_tick p c c1 cs HL J E P1) as (J1 & SP).
  assert (L1 : length (c_pos c1) = 3%nat) by (rewrite P1; apply add_cmds_length; auto).
  destruct (sg_isModified (c_sig c1) || sg_isTimedOut (c_sig c1)) eqn:EM.
  - destruct (sg_output (c_sig c1)) as [g s'] eqn:EO. inversion H; subst; clear H.
    exists [cs]. cbn [sg_run]. unfold sg_tick. rewrite <- S1, EM, EO. cbn [fst snd].
    split; [reflexivity|]. split; [reflexivity|]. split; [exact L1|]. split; [|split; [|exact (after_sig _ _ g J1)]].
    + intros a Ha. cbn [c_with_sig c_pos]. rewrite P1, add_cmds_nth by auto. cbn [cmd_at map net fold_right]. lia.
    + intros a Ha. cbn [cmd_at map spaced]. split; auto.
  - destruct (IHfuel _ _ _ cs L1 J1 H) as (css & F1 & R1 & LL & P2 & SP2 & J2).
    exists (cs :: css). cbn [sg_run]. unfold sg_tick. rewrite <- S1, EM.
    destruct (sg_run (c_sig c1) css) as [[g pins] recs] eqn:ER. cbn [fst snd] in *.
    split; [auto|]. split; [auto|]. split; [auto|]. split; [|split].
    + intros a Ha. rewrite P2, P1, add_cmds_nth by auto.
      change (net (cmd_at a (cs :: css))) with (zdir (nth a cs None) + net (cmd_at a css))%Z. lia.
    + intros a Ha. specialize (SP2 a Ha). cbn [cmd_at map] in *. split; [apply SP; auto|exact SP2].
    + rewrite last_cons. exact J2.
Qed.
Lemma calcs_spaced n : forall c c' recs p, length (c_pos c) = 3%nat -> after p c -> c_run A M c (repeat OCalc n) = Ok (c', recs) ->
  exists css, fst (fst (sg_run (c_sig c) css)) = c_sig c' /\ snd (sg_run (c_sig c) css) = recs /\
    (forall a, (a < 3)%nat -> nth a (c_pos c') 0%Z = (nth a (c_pos c) 0 + net (cmd_at a css))%Z) /\
    (forall a, (a < 3)%nat -> spaced (cmd_at a (p :: css))).
Proof.
  induction n as [|n IH]; intros c c' recs p HL J H; cbn [repeat c_run] in H.
  - inversion H; subst. exists []. cbn. repeat split; auto. intros. lia.
  - unfold rbind in H. destruct (c_step A M c OCalc) as [[c1 s1]|] eqn:E; [|discriminate].
    destruct (c_run A M c1 (repeat OCalc n)) as [[c2 s2]|] eqn:E2; [|discriminate]. inversion H; subst; clear H.
    cbn [c_step] in E. unfold rbind in E. destruct (c_calc A M _ c) as [[[d s]|]|] eqn:EC; try discriminate. inversion E; subst; clear E.
    destruct (calc_spaced _ _ _ _ _ HL J EC) as (l1 & G1 & R1 & L1 & P1 & SP1 & J1).
    destruct (IH _ _ _ _ L1 J1 E2) as (l2 & G2 & R2 & P2 & SP2).
    exists (l1 ++ l2). rewrite sg_run_app. destruct (sg_run (c_sig c) l1) as [[g1 p1] q1]. cbn in G1, R1. subst g1 q1.
    destruct (sg_run (c_sig c1) l2) as [[g2 p2] q2]. cbn in G2, R2 |- *. subst. split; [auto|]. split; [auto|]. split.
    + intros a Ha. rewrite cmd_at_app, net_app, P2, P1 by auto. lia.
    + intros a Ha. specialize (SP1 a Ha). specialize (SP2 a Ha). cbn [cmd_at map] in *. fold (cmd_at a (l1 ++ l2)). rewrite cmd_at_app.
      apply spaced_app; [exact SP1|]. rewrite <- last_cmd. exact SP2.
Qed.
Lemma loads_keep ms : forall c c' recs, c_run A M c (map OAppend ms ++ [OStart]) = Ok (c', recs) -> c_sig c' = c_sig c /\ c_pos c' = c_pos c /\ recs = [].
Proof.
  induction ms as [|m ms IH]; intros c c' recs E; cbn [map app c_run] in E; unfold rbind in E.
  - cbn [c_step] in E. inversion E; subst. split; [|split; [|reflexivity]]; unfold c_start; destruct (c_isEmpty c); cbn [negb]; auto;
      match goal with |- context [c_optimize A M ?x] => destruct (optimize_keep A M x) as (H1 & H2 & _) end; auto.
  - cbn [c_step] in E. destruct (c_run A M (c_append A M c m) (map OAppend ms ++ [OStart])) as [[c2 s2]|] eqn:E2; [|discriminate].
    inversion E; subst. destruct (IH _ _ _ E2) as (-> & -> & ->). destruct (append_keep A M c m) as (-> & -> & _). auto.
Qed.
(** A fresh controller, motions, start, and signals computed [n] times. *)
Lemma pulses_apart m w ms c0 n c' recs : (m < two32)%N -> c_run A M (c_init A m w) (map OAppend ms ++ [OStart]) = Ok (c0, []) -> apart c0 ->
  c_run A M c0 (repeat OCalc n) = Ok (c', recs) -> forall a, (a < 3)%nat ->
  exists pend, (length pend <= 1)%nat /\ nth a (c_pos c') 0%Z = net_dirs (pulses (N.of_nat a) false (replay 0 recs) ++ pend).
Proof.
  intros Hm R AP RC a Ha. destruct (loads_keep _ _ _ _ R) as (S0 & P0 & _).
  assert (HL : length (c_pos c0) = 3%nat) by (rewrite P0; reflexivity).
  assert (J : after [] c0). { split; [exact AP|]. intros c1 _ i _ C. destruct i; discriminate C. }
  destruct (calcs_spaced n c0 c' recs [] HL J RC) as (css & G & Q & P & SP).
  destruct (run_css A M _ _ _ _ HL RC) as (_ & _ & _ & _ & _ & T & _).
  rewrite S0 in G, Q, T. change (c_sig (c_init A m w)) with (sg_setMaxTicks sg_zero m) in *. specialize (T eq_refl).
  pose proof (records_run css (sg_setMaxTicks sg_zero m) ltac:(now right) Hm) as RR.
  destruct (pulses_pending m css (N.of_nat a)) as (pend & L & E).
  { unfold nmbrAxis. lia. }
  { rewrite Nat2N.id. specialize (SP a Ha). cbn [cmd_at map] in SP. fold (cmd_at a css) in SP. destruct (cmd_at a css); [exact I|apply SP]. }
  exists pend. split; [exact L|]. rewrite P by auto. rewrite P0. replace (nth a (c_pos (c_init A m w)) 0%Z) with 0%Z by (destruct a as [|[|[|]]]; try lia; reflexivity).
  rewrite Nat2N.id in E. rewrite <- net_commanded, <- E, Z.add_0_l. f_equal. f_equal. f_equal.
  unfold pins_of. destruct (sg_run (sg_setMaxTicks sg_zero m) css) as [[g2 p2] q2]. cbn in G, Q. subst. destruct RR as (RR & _).
  rewrite T in RR. cbn in RR. rewrite app_nil_r in RR. exact RR.
Qed.
End Any.

Lemma own_pulse X M fo u : funit_ok X M u -> forall w m, (m < two32)%N -> trig_ok X -> float32 w (fu_W u) -> fine_steps u ->
  let A := sf_arith X in let c := c_init A m w in
  forall x0 qs, idle X c w fo -> Forall (move_ok X M fo u) qs -> Forall (slow u) qs -> qs <> [] -> (length qs <= 32)%nat -> joined (fu_k u) x0 (map fq_P qs) ->
  (forall i, (i < 3)%nat -> (Rabs (fu_k u i * x0 i - counted c i) <= 54/100)%R) ->
  forall n c' recs, c_run A M c (map (fun q => OAppend (fq_m q)) qs ++ OStart :: repeat OCalc n) = Ok (c', recs) ->
  forall a, (a < 3)%nat -> exists pend, (length pend <= 1)%nat /\ nth a (c_pos c') 0%Z = net_dirs (pulses (N.of_nat a) false (replay 0 recs) ++ pend).
Proof.
  intros UO w m Hm TR FW FS A c x0 qs ID MO SL NE HL JN CL n c' recs R.
  destruct (apart_lemma X M fo u UO w TR FW FS c x0 qs ID MO SL NE HL JN CL) as (c0 & R0 & AP). fold A in R0.
  assert (R2 : c_run A M c ((map (fun q => OAppend (fq_m q)) qs ++ [OStart]) ++ repeat OCalc n) = Ok (c', recs)) by (rewrite <- app_assoc; exact R).
  pose proof (run_app X M _ (repeat OCalc n) c c0 R0) as RA. fold A in RA. rewrite RA in R2.
  apply (pulses_apart A M m w (map fq_m qs) c0 n c' recs Hm); auto. rewrite map_map. exact R0.
Qed.
