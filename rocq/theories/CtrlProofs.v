(** Proofs about the motion controller that hold for every arithmetic. *)
Require Import List Arith NArith ZArith Bool Lia ZifyBool ZifyNat ZifyN.
From Verif Require Import Base BaseProofs EventModel StepModel StepSpec StepSignalsProofs Num MotionModel CtrlModel CtrlSpec.
Import ListNotations.
Open Scope N_scope.

Section CtrlP.
Context {D F : Type} (A : arith D F) (M : machine F).
Local Notation K := (aF A).

(** *** One tick as step commands. *)
Lemma stepAxis_ok (c : ctrl F) i d c' : c_stepAxis c i d = Ok c' ->
  c_sig c' = sg_cmd (c_sig c) (N.of_nat i) (Some d) /\
  c_pos c' = upd (c_pos c) i (nth i (c_pos c) 0 + zdir (Some d))%Z /\
  c' = c_with_pos (c_with_sig c (c_sig c')) (c_pos c').
Proof.
  unfold c_stepAxis. intros H. destruct d; destruct (int32_ok _); inversion H; subst; cbn; auto.
Qed.

Lemma upd_same {X} (l : list X) i d : (i < length l)%nat -> upd l i (nth i l d) = l.
Proof. revert i; induction l; intros [|i] H; cbn in *; try lia; auto. f_equal. apply IHl. lia. Qed.

Lemma moveAxis_ok o dist (c : ctrl F) i c' : (i < length (c_pos c))%nat -> c_moveAxis A M o dist c i = Ok c' ->
  exists x : option dir, c_sig c' = sg_cmd (c_sig c) (N.of_nat i) x /\
  c_pos c' = upd (c_pos c) i (nth i (c_pos c) 0 + zdir x)%Z /\
  c' = c_with_pos (c_with_sig c (c_sig c')) (c_pos c').
Proof.
  unfold c_moveAxis, c_trackAxis, c_decide. intros Hi H.
  assert (N0 : c' = c -> exists x : option dir, c_sig c' = sg_cmd (c_sig c) (N.of_nat i) x /\
     c_pos c' = upd (c_pos c) i (nth i (c_pos c) 0 + zdir x)%Z /\
     c' = c_with_pos (c_with_sig c (c_sig c')) (c_pos c')).
  { intros ->. exists None. cbn [zdir sg_cmd]. rewrite Z.add_0_r, upd_same by auto. repeat split; auto.
    destruct c; reflexivity. }
  destruct (mo_isMoving A o i); [|inversion H; subst; apply N0; reflexivity].
  unfold rbind in H. destruct (needStepForward A M c i _) as [[|]|]; [| |discriminate].
  - exists (Some Fwd). apply stepAxis_ok; auto.
  - destruct (needStepBackward A M c i _).
    + exists (Some Bwd). apply stepAxis_ok; auto.
    + inversion H; subst; apply N0; reflexivity.
Qed.

Lemma move_ok (c c' : ctrl F) : length (c_pos c) = 3%nat -> c_move A M c = Ok c' ->
  exists cs, length cs = 3%nat /\ c_sig c' = sg_cmds (c_sig c) 0 cs /\
    c_pos c' = add_cmds (c_pos c) cs /\ c' = c_with_pos (c_with_sig c (c_sig c')) (c_pos c').
Proof.
  unfold c_move. intros HL H. cbn [c_moveAxes axes] in H. unfold rbind in H.
  destruct (c_moveAxis _ _ _ _ c 0) as [c1|] eqn:E0; [|discriminate].
  destruct (c_moveAxis _ _ _ _ c1 1) as [c2|] eqn:E1; [|discriminate].
  destruct (c_moveAxis _ _ _ _ c2 2) as [c3|] eqn:E2; [|discriminate].
  inversion H; subst c3; clear H.
  apply moveAxis_ok in E0; [|lia]. destruct E0 as (x0 & S0 & P0 & R0).
  assert (L1 : length (c_pos c1) = 3%nat) by (rewrite P0, upd_length; auto).
  apply moveAxis_ok in E1; [|lia]. destruct E1 as (x1 & S1 & P1 & R1).
  assert (L2 : length (c_pos c2) = 3%nat) by (rewrite P1, upd_length; auto).
  apply moveAxis_ok in E2; [|lia]. destruct E2 as (x2 & S2 & P2 & R2).
  exists [x0; x1; x2]. split; [reflexivity|].
  split. { cbn [sg_cmds]. rewrite S2, S1, S0. reflexivity. }
  split. { rewrite P2, P1, P0. destruct (c_pos c) as [|p0 [|p1 [|p2 [|]]]]; try discriminate.
    cbn. reflexivity. }
  rewrite R2, R1, R0. reflexivity.
Qed.

Lemma add_cmds_nil l : length l = 3%nat -> add_cmds l [] = l.
Proof.
  intros H. destruct l as [|? [|? [|? [|]]]]; try discriminate.
  unfold add_cmds. cbn [map nth zdir]. rewrite !Z.add_0_r. reflexivity.
Qed.

(** The frame of a tick: what [c_advance] leaves alone. *)
Lemma advance_cmds fuel : forall (c c' : ctrl F), length (c_pos c) = 3%nat ->
  c_advance A M fuel c = Ok c' ->
  exists cs, (length cs = 3%nat \/ cs = []) /\ c_sig c' = sg_cmds (c_sig c) 0 cs /\
    c_pos c' = add_cmds (c_pos c) cs.
Proof.
  induction fuel; intros c c' HL H; cbn [c_advance] in H;
    (destruct (st_isBeyond A (c_st c) _); [destruct (1 <? c_level c)|]).
  - discriminate.
  - inversion H; subst. exists []. split; [auto|]. split; [reflexivity|]. symmetry; apply (add_cmds_nil (c_pos c)); auto.
  - apply move_ok in H; auto. destruct H as (cs & L & S1 & P1 & _). exists cs; auto.
  - apply IHfuel in H; auto.
  - inversion H; subst. exists []. split; [auto|]. split; [reflexivity|]. symmetry; apply (add_cmds_nil (c_pos c)); auto.
  - apply move_ok in H; auto. destruct H as (cs & L & S1 & P1 & _). exists cs; auto.
Qed.

Lemma tick_cmds (c c' : ctrl F) : length (c_pos c) = 3%nat -> c_tick A M c = Ok c' ->
  exists cs, (length cs = 3%nat \/ cs = []) /\ c_sig c' = sg_cmds (sg_next (c_sig c)) 0 cs /\
    c_pos c' = add_cmds (c_pos c) cs.
Proof.
  unfold c_tick, c_isRunning. intros HL H. cbn [c_state c_with_sig] in H.
  destruct (c_state c).
  3: { inversion H; subst. exists []. split; auto. split; [reflexivity|]. symmetry. apply add_cmds_nil. exact HL. }
  all: apply advance_cmds in H; [|destruct (st_isBeyond _ _ _); exact HL].
  all: destruct (st_isBeyond _ _ _) in H; exact H.
Qed.

Lemma add_cmds_length l cs : length l = 3%nat -> length (add_cmds l cs) = 3%nat.
Proof. destruct l as [|? [|? [|? [|]]]]; try discriminate. reflexivity. Qed.

Lemma add_cmds_nth l cs a : length l = 3%nat -> (a < 3)%nat ->
  nth a (add_cmds l cs) 0%Z = (nth a l 0 + zdir (nth a cs None))%Z.
Proof.
  intros H Ha. destruct l as [|? [|? [|? [|]]]]; try discriminate.
  unfold add_cmds. destruct a as [|[|[|]]]; try lia; reflexivity.
Qed.

(** A call of calcNext as a run of the signal generator. *)
Lemma calc_run fuel : forall (c c' : ctrl F) s, length (c_pos c) = 3%nat ->
  c_calc A M fuel c = Ok (Some (c', s)) ->
  exists css, (forall cs, In cs css -> (length cs <= 3)%nat) /\ css <> [] /\
    fst (fst (sg_run (c_sig c) css)) = c_sig c' /\
    snd (sg_run (c_sig c) css) = [s] /\ length (c_pos c') = 3%nat /\
    forall a, (a < 3)%nat -> nth a (c_pos c') 0%Z = (nth a (c_pos c) 0 + net (cmd_at a css))%Z.
Proof.
  induction fuel; intros c c' s HL H; cbn [c_calc] in H; [discriminate|].
  unfold rbind in H. destruct (c_tick A M c) as [c1|] eqn:E; [|discriminate].
  destruct (tick_cmds _ _ HL E) as (cs & Lcs & S1 & P1).
  assert (L1 : length (c_pos c1) = 3%nat) by (rewrite P1; apply add_cmds_length; auto).
  destruct (sg_isModified (c_sig c1) || sg_isTimedOut (c_sig c1)) eqn:EM.
  - destruct (sg_output (c_sig c1)) as [g s'] eqn:EO. inversion H; subst; clear H.
    exists [cs]. split. { intros ? [<-|[]]. destruct Lcs as [->| ->]; cbn; lia. }
    split; [discriminate|]. cbn [sg_run]. unfold sg_tick. rewrite <- S1, EM, EO. cbn [fst snd c_with_sig c_sig c_pos].
    split; [reflexivity|]. split; [reflexivity|]. split; [auto|].
    intros a Ha. rewrite P1, add_cmds_nth by auto. cbn [cmd_at map net fold_right]. lia.
  - destruct (IHfuel _ _ _ L1 H) as (css & B & _ & F1 & R1 & LL & P2).
    exists (cs :: css). split. { intros ? [<-|Hin]; auto. destruct Lcs as [->| ->]; cbn; lia. }
    split; [discriminate|]. cbn [sg_run]. unfold sg_tick. rewrite <- S1, EM.
    destruct (sg_run (c_sig c1) css) as [[g pins] recs] eqn:ER. cbn [fst snd] in *.
    split; [auto|]. split; [auto|]. split; [auto|].
    intros a Ha. rewrite P2, P1, add_cmds_nth by auto.
    change (net (cmd_at a (cs :: css))) with (zdir (nth a cs None) + net (cmd_at a css))%Z. lia.
Qed.

(** *** Histories as runs of the signal generator. *)
Lemma sg_run_app g l1 l2 :
  sg_run g (l1 ++ l2) =
  let '(g1, p1, r1) := sg_run g l1 in let '(g2, p2, r2) := sg_run g1 l2 in (g2, p1 ++ p2, r1 ++ r2).
Proof.
  revert g. induction l1 as [|cs l1 IH]; intro g; cbn [app sg_run].
  - destruct (sg_run g l2) as [[? ?] ?]. reflexivity.
  - destruct (sg_tick g cs) as [g1 o]. rewrite IH. destruct (sg_run g1 l1) as [[g2 p1] r1].
    destruct (sg_run g2 l2) as [[g3 p2] r2]. destruct o; reflexivity.
Qed.

Lemma net_app a b : net (a ++ b) = (net a + net b)%Z.
Proof. induction a; cbn [app net fold_right]; [reflexivity|]. fold (net (a0 ++ b)) (net a0). lia. Qed.

Lemma optimize_keep (c : ctrl F) : let c' := c_optimize A M c in
  c_sig c' = c_sig c /\ c_pos c' = c_pos c /\ c_events c' = c_events c /\ c_st c' = c_st c /\
  c_state c' = c_state c /\ c_head c' = c_head c /\ c_level c' = c_level c /\ c_fo c' = c_fo c /\ c_levelMax c' = c_levelMax c.
Proof.
  unfold c_optimize. destruct (c_level c =? 0); [repeat split|].
  destruct (c_level c =? 1); [repeat split|].
  generalize (junctions c) as l. intro l. cbv zeta.
  enough (H : forall l (d : ctrl F), let c' := fold_left (c_optimizePair A M) l d in
    c_sig c' = c_sig d /\ c_pos c' = c_pos d /\ c_events c' = c_events d /\ c_st c' = c_st d /\
    c_state c' = c_state d /\ c_head c' = c_head d /\ c_level c' = c_level d /\ c_fo c' = c_fo d /\ c_levelMax c' = c_levelMax d) by apply H.
  clear. induction l as [|j l IH]; intro d; cbn [fold_left]; [repeat split|].
  cbv zeta in *. destruct (IH (c_optimizePair A M d j)) as (H1 & H2 & H3 & H4 & H5 & H6 & H7 & H8 & H9).
  rewrite H1, H2, H3, H4, H5, H6, H7, H8, H9. unfold c_optimizePair. destruct (j =? 0); repeat split.
Qed.

Lemma append_keep (c : ctrl F) m : let c' := c_append A M c m in
  c_sig c' = c_sig c /\ c_pos c' = c_pos c /\ c_st c' = c_st c /\ c_state c' = c_state c.
Proof. unfold c_append. destruct (c_isFull c); repeat split. Qed.

Lemma step_run (c c' : ctrl F) o recs : length (c_pos c) = 3%nat -> c_step A M c o = Ok (c', recs) ->
  exists css, (forall cs, In cs css -> (length cs <= 3)%nat) /\
    fst (fst (sg_run (c_sig c) css)) = c_sig c' /\ snd (sg_run (c_sig c) css) = recs /\
    length (c_pos c') = 3%nat /\ (sg_ticks (c_sig c) = 0 -> sg_ticks (c_sig c') = 0) /\
    (o <> OReset -> forall a, (a < 3)%nat -> nth a (c_pos c') 0%Z = (nth a (c_pos c) 0 + net (cmd_at a css))%Z).
Proof.
  intros HL H.
  assert (Q : forall d : ctrl F, c_sig d = c_sig c -> c_pos d = c_pos c -> Ok (d, []) = Ok (c', recs) ->
   exists css, (forall cs, In cs css -> (length cs <= 3)%nat) /\
    fst (fst (sg_run (c_sig c) css)) = c_sig c' /\ snd (sg_run (c_sig c) css) = recs /\
    length (c_pos c') = 3%nat /\ (sg_ticks (c_sig c) = 0 -> sg_ticks (c_sig c') = 0) /\
    (o <> OReset -> forall a, (a < 3)%nat -> nth a (c_pos c') 0%Z = (nth a (c_pos c) 0 + net (cmd_at a css))%Z)).
  { intros d S P E. inversion E; subst. exists []. rewrite S, P. cbn. repeat split; auto; try tauto.
    intros. rewrite Z.add_0_r. reflexivity. }
  destruct o; cbn [c_step] in H.
  - refine (Q _ _ _ H); apply append_keep.
  - refine (Q _ _ _ H); unfold c_start; destruct (c_isEmpty c); cbn [negb]; auto;
      match goal with |- context [c_optimize A M ?x] => destruct (optimize_keep x) as (H1 & H2 & _) end; auto.
  - refine (Q _ _ _ H); unfold c_stop;
      match goal with |- context [c_optimize A M ?x] => destruct (optimize_keep x) as (H1 & H2 & _) end; auto.
  - refine (Q _ _ _ H); unfold c_flush; destruct (c_isRunning c); auto.
  - inversion H; subst. exists []. cbn. repeat split; auto; tauto.
  - refine (Q _ _ _ H); auto.
  - unfold rbind in H. destruct (c_calc A M _ c) as [[[d s]|]|] eqn:E; try discriminate.
    inversion H; subst. pose proof E as E'. apply calc_run in E; auto. destruct E as (css & B & NE & S & R & L & P).
    exists css. repeat split; auto. intros _.
    clear - E'. revert E'. match goal with |- c_calc A M ?n c = _ -> _ => generalize n end. intros n. revert c.
    induction n; intros c H; cbn [c_calc] in H; [discriminate|]. unfold rbind in H.
    destruct (c_tick A M c) as [c1|]; [|discriminate]. destruct (_ || _).
    + inversion H; subst. reflexivity.
    + eauto.
Qed.

Lemma run_css ops : forall (c c' : ctrl F) recs, length (c_pos c) = 3%nat -> c_run A M c ops = Ok (c', recs) ->
  exists css, (forall cs, In cs css -> (length cs <= 3)%nat) /\
    fst (fst (sg_run (c_sig c) css)) = c_sig c' /\ snd (sg_run (c_sig c) css) = recs /\
    length (c_pos c') = 3%nat /\ (sg_ticks (c_sig c) = 0 -> sg_ticks (c_sig c') = 0) /\
    (no_reset ops -> forall a, (a < 3)%nat -> nth a (c_pos c') 0%Z = (nth a (c_pos c) 0 + net (cmd_at a css))%Z).
Proof.
  induction ops as [|o r IH]; intros c c' recs HL H; cbn [c_run] in H.
  - inversion H; subst. exists []. cbn. repeat split; auto; try tauto. intros. rewrite Z.add_0_r. reflexivity.
  - unfold rbind in H. destruct (c_step A M c o) as [[c1 s1]|] eqn:E; [|discriminate].
    destruct (c_run A M c1 r) as [[c2 s2]|] eqn:E2; [|discriminate]. inversion H; subst; clear H.
    destruct (step_run _ _ _ _ HL E) as (l1 & B1 & G1 & R1 & L1 & T1 & P1).
    destruct (IH _ _ _ L1 E2) as (l2 & B2 & G2 & R2 & L2 & T2 & P2).
    exists (l1 ++ l2). split. { intros cs I. apply in_app_or in I. destruct I; auto. }
    rewrite sg_run_app. destruct (sg_run (c_sig c) l1) as [[g1 p1] q1]. cbn in G1, R1. subst g1 q1.
    destruct (sg_run (c_sig c1) l2) as [[g2 p2] q2]. cbn in G2, R2 |- *. subst.
    repeat split; auto. intros N a Ha. rewrite cmd_at_app, net_app, P2, P1; auto; try lia.
    + intro; subst; apply N; left; auto.
    + intro I; apply N; right; auto.
Qed.

(** C21 *)
Definition c_good (m : N) (c : ctrl F) css recs : Prop :=
    snd (sg_run (sg_setMaxTicks sg_zero m) css) = recs.

Lemma position_counts_lemma m width ops1 ops2 (c1 c2 : ctrl F) recs1 recs2 :
  c_run A M (c_init A m width) ops1 = Ok (c1, recs1) ->
  (ops1 = [] \/ exists l, ops1 = l ++ [OReset]) ->
  c_run A M c1 ops2 = Ok (c2, recs2) -> no_reset ops2 ->
  exists css1 css2,
    recs1 = recs_of m css1 /\ recs1 ++ recs2 = recs_of m (css1 ++ css2) /\
    (forall a, (a < 3)%nat -> nth a (c_pos c2) 0%Z = net (cmd_at a css2)) /\
    (m < two32 -> pins_of m (css1 ++ css2) = replay 0 (recs1 ++ recs2)).
Proof.
  intros R1 RS R2 NR.
  destruct (run_css ops1 (c_init A m width) c1 recs1 eq_refl R1) as (l1 & B1 & G1 & Q1 & L1 & T1 & P1).
  destruct (run_css ops2 c1 c2 recs2 L1 R2) as (l2 & B2 & G2 & Q2 & L2 & T2 & P2).
  exists l1, l2. unfold recs_of, pins_of. change (c_sig (c_init A m width)) with (sg_setMaxTicks sg_zero m) in *.
  rewrite sg_run_app. destruct (sg_run (sg_setMaxTicks sg_zero m) l1) as [[g1 p1] q1] eqn:E1.
  cbn in G1, Q1. subst g1 q1.
  destruct (sg_run (c_sig c1) l2) as [[g2 p2] q2] eqn:E2. cbn in G2, Q2. subst g2 q2. cbn [fst snd].
  split; auto. split; auto. split.
  - intros a Ha. rewrite P2 by auto.
    enough (nth a (c_pos c1) 0%Z = 0%Z) by lia.
    destruct RS as [->|(l & ->)].
    + cbn in R1. inversion R1; subst. destruct a as [|[|[|]]]; try lia; reflexivity.
    + clear - R1 Ha. revert R1. generalize (c_init A m width). intro c. revert c recs1.
      induction l as [|o r IH]; intros c recs1 H; cbn [app c_run] in H; unfold rbind in H.
      * cbn in H. inversion H; subst. destruct a as [|[|[|]]]; try lia; reflexivity.
      * destruct (c_step A M c o) as [[d s]|]; [|discriminate].
        destruct (c_run A M d (r ++ [OReset])) as [[e t]|] eqn:E; [|discriminate].
        inversion H; subst. eapply IH; eauto.
  - intro Hm. pose proof (records_run (l1 ++ l2) (sg_setMaxTicks sg_zero m) ltac:(now right) Hm) as R.
    rewrite sg_run_app, E1, E2 in R. destruct R as (R & _).
    specialize (T2 (T1 eq_refl)). rewrite T2 in R. cbn in R. rewrite app_nil_r in R. exact R.
Qed.

Lemma net_commanded l : net_dirs (commanded l) = net l.
Proof.
  induction l as [|c r IH]; cbn [commanded flat_map]; auto. fold (commanded r).
  destruct c as [d|]; cbn [app net net_dirs fold_right]; fold (net r) (net_dirs (commanded r)); cbn [zdir]; lia.
Qed.

(** Pulses seen on the pins: all commands but possibly the very last one. *)
Lemma wpulses_split l : forall prev cur ppin,
  wpulses ppin (step_wave prev (l ++ [None])) (dir_wave cur (l ++ [None])) =
  wpulses ppin (step_wave prev l) (dir_wave cur l) ++
  wpulses (last (step_wave prev l) ppin) [nth (length l) (step_wave prev (l ++ [None])) false]
                                          [nth (length l) (dir_wave cur (l ++ [None])) false].
Proof.
  induction l as [|c r IH]; intros prev cur ppin; cbn [app step_wave dir_wave].
  - reflexivity.
  - assert (LL : forall (x y d : bool) q, last (x :: q) d = last q x).
    { clear. intros x _ d q. revert x d. induction q as [|z q IHq]; intros x d; [reflexivity|].
      change (last (x :: z :: q) d) with (last (z :: q) d). rewrite (IHq z d). symmetry. apply IHq. }
    destruct c as [[]|]; cbn [wpulses length nth]; rewrite IH, <- app_assoc, (LL _ true); reflexivity.
Qed.
Lemma pulses_pending m css a : a < nmbrAxis -> spaced (cmd_at (N.to_nat a) css) ->
  exists pend, (length pend <= 1)%nat /\
   pulses a false (pins_of m css) ++ pend = commanded (cmd_at (N.to_nat a) css).
Proof.
  intros Ha S. rewrite <- (pulses_spaced_lemma m css a Ha S).
  rewrite !pulses_w. destruct (waveform_lemma m (css ++ [[]]) a Ha) as [-> ->].
  destruct (waveform_lemma m css a Ha) as [-> ->].
  rewrite cmd_at_app. replace (cmd_at (N.to_nat a) [[]]) with [@None dir]
    by (cbn; destruct (N.to_nat a); reflexivity).
  rewrite wpulses_split. eexists. split; [|reflexivity].
  cbn [wpulses]. destruct (_ && _); cbn; lia.
Qed.

(** *** C22 *)
Lemma advance_fuel f : forall (c : ctrl F), c_level c < two32 -> (N.to_nat (c_level c) <= f)%nat ->
  c_advance A M f c = c_advance A M (N.to_nat (c_level c)) c.
Proof.
  assert (E : forall f (c : ctrl F), c_level c < two32 -> (N.to_nat (c_level c) <= f)%nat ->
    c_advance A M (S f) c = c_advance A M f c).
  { clear. induction f; intros c H L.
    - cbn [c_advance]. destruct (1 <? c_level c) eqn:E; [lia|reflexivity].
    - cbn [c_advance] in *. destruct (st_isBeyond A (c_st c) _); [|reflexivity].
      destruct (1 <? c_level c) eqn:E; [|reflexivity]. rewrite IHf; [reflexivity| |];
      cbn [c_emit c_with_st c_pop c_with_queue c_level]; unfold sub32, w32;
      replace (c_level c + two32 - 1) with ((c_level c - 1) + 1 * two32) by lia;
      rewrite N.mod_add by discriminate; rewrite N.mod_small by lia; lia. }
  induction f; intros c H L.
  - replace (N.to_nat (c_level c)) with 0%nat by lia. reflexivity.
  - destruct (Nat.eq_dec (N.to_nat (c_level c)) (S f)) as [->|]; [reflexivity|].
    rewrite E by lia. apply IHf; auto; lia.
Qed.

Lemma tick_ticks (c c' : ctrl F) : length (c_pos c) = 3%nat -> c_tick A M c = Ok c' ->
  sg_ticks (c_sig c') = add32 (sg_ticks (c_sig c)) 1 /\ sg_maxTicks (c_sig c') = sg_maxTicks (c_sig c) /\ length (c_pos c') = 3%nat.
Proof.
  intros HL H. apply tick_cmds in H; auto. destruct H as (cs & _ & S & P).
  destruct (cmds_keep cs (sg_next (c_sig c)) 0) as (_ & B & C). rewrite S, B, C, P. repeat split.
Qed.

Lemma calc_terminates n : forall (c : ctrl F), length (c_pos c) = 3%nat ->
  sg_maxTicks (c_sig c) < two32 ->
  (sg_ticks (c_sig c) = 0 \/ sg_ticks (c_sig c) < sg_maxTicks (c_sig c)) ->
  N.max 1 (sg_maxTicks (c_sig c)) <= sg_ticks (c_sig c) + N.of_nat n ->
  (n <> 0)%nat ->
  c_calc A M n c = UB \/ exists c' s, c_calc A M n c = Ok (Some (c', s)) /\
     1 <= timeBefore s <= N.max 1 (sg_maxTicks (c_sig c)).
Proof.
  induction n; intros c HL HM HT HN H0; [lia|]. cbn [c_calc]. unfold rbind.
  destruct (c_tick A M c) as [c1|] eqn:E; [|auto]. destruct (tick_ticks _ _ HL E) as (T & X & L1).
  unfold add32, w32 in T. rewrite N.mod_small in T by (unfold two32 in *; lia).
  destruct (sg_isModified (c_sig c1) || sg_isTimedOut (c_sig c1)) eqn:EM.
  - right. cbn [sg_output]. eexists _, _. split; [reflexivity|]. cbn [timeBefore]. lia.
  - apply orb_false_elim in EM as [_ EM]. unfold sg_isTimedOut in EM.
    rewrite <- X. apply IHn; auto; lia.
Qed.
Lemma run_sig ops : forall (c c' : ctrl F) recs, length (c_pos c) = 3%nat -> c_run A M c ops = Ok (c', recs) ->
  sg_maxTicks (c_sig c') = sg_maxTicks (c_sig c).
Proof.
  intros c c' recs HL H. destruct (run_css _ _ _ _ HL H) as (css & _ & G & _).
  rewrite <- G. generalize (c_sig c). clear. induction css as [|cs r IH]; intro g; cbn [sg_run]; auto.
  destruct (sg_tick g cs) as [g1 o] eqn:E. specialize (IH g1).
  destruct (sg_run g1 r) as [[g2 p] q]. cbn in *. rewrite IH. unfold sg_tick in E.
  destruct (cmds_keep cs (sg_next g) 0) as (_ & _ & C). destruct (_ || _); inversion E; subst; exact C.
Qed.
Lemma calc_terminates_lemma m width ops (c : ctrl F) recs : m < two32 ->
  c_run A M (c_init A m width) ops = Ok (c, recs) ->
  let n := N.to_nat (N.max 1 m) in
  c_calc A M n c = UB \/ exists c' s, c_calc A M n c = Ok (Some (c', s)) /\ 1 <= timeBefore s <= N.max 1 m.
Proof.
  intros Hm H n. destruct (run_css ops (c_init A m width) c recs eq_refl H) as (css & _ & G & _ & L & T & _).
  pose proof (run_sig _ (c_init A m width) _ _ eq_refl H : _ = m) as X.
  replace (N.max 1 m) with (N.max 1 (sg_maxTicks (c_sig c))) in * by (rewrite X; auto).
  apply calc_terminates; auto; rewrite ?X; auto; subst n; lia.
Qed.
End CtrlP.
