(** What the inputs do, and do not do, to the machine. *)
Require Import List Arith NArith ZArith Bool Lia.
From Verif Require Import Base EventModel EventProofs InputModel StepModel StepSpec Num NumSF MotionModel CtrlModel CtrlSpec CtrlProofs
  HomingModel HomingSpec HomingProofs SystemModel SystemSpec SystemProofs HomingWitness SafetySpec.
Import ListNotations.
Open Scope N_scope.

Section P.
Context {D F : Type} (A : arith D F) (M : machine F) (H : hcfg D F).

(** The events homing ever waits for. *)
Lemma handle_ignores closed e h p : sim A H h p -> e <> motionStopped ->
  (forall u a, e <> limit_closed u a) -> (forall u a, e <> limit_opened u a) -> h_handle A H closed e h = (h, []).
Proof.
  intros S0 N1 N2 N3. unfold h_handle, sim in *. destruct (h_state h) eqn:ES; try reflexivity;
    repeat match goal with |- context [event_eqb ?x ?y] => destruct (event_eqb_spec x y) as [EQ|NE] end; try reflexivity; try congruence;
    destruct S0 as (a & r & (_ & _ & _ & C1 & C2 & _) & _); exfalso; [apply (N2 (up H a) a)|apply (N3 (up H a) a)]; congruence.
Qed.

Lemma undisturbed_drain (y : sys F) b : c_events (y_c y) = [] ->
  undisturbed y (drain (mkSys (y_c y) (y_sb y) (y_in y) b (y_h y))).
Proof. intro E. unfold undisturbed, drain. cbn [y_c y_sb y_h]. destruct (y_c y). cbn in E. subst. repeat split. Qed.

Lemma operator_lemma width y y' e : reachable A M H width y -> In e operator_events ->
  next_event y e -> y_step A M H y YEvent = Ok y' -> undisturbed y y'.
Proof.
  intros R IE [HE PE] E. apply reachable_inv in R. destruct R as (_ & _ & _ & _ & _ & I6 & (p & I7) & _).
  cbn [y_step] in E. rewrite HE in E. destruct (eb_pop (y_ev y)) as [b e0]. cbn [snd] in PE. subst e0.
  assert (X : h_handle A H (reading y) e (y_h y) = (y_h y, [])).
  { apply (handle_ignores _ _ _ p I7); cbn [operator_events In] in IE.
    - intuition congruence.
    - intros u a. destruct u, a as [|[|[|[|a]]]]; cbn; intuition congruence.
    - intros u a. destruct u, a as [|[|[|[|a]]]]; cbn; intuition congruence. }
  rewrite X in E. destruct (in_range y (y_h y)); [|discriminate]. injection E as <-. apply undisturbed_drain, I6.
Qed.
Lemma frame_sample y raw : exists y', y_step A M H y (YSample raw) = Ok y' /\ undisturbed y y'.
Proof. cbn [y_step]. destruct (sample_inputs (y_in y) raw (y_ev y)) as [l b]. eexists. split; [reflexivity|]. repeat split. Qed.

(** Limit switches. *)
Lemma limit_lemma width y y' e : reachable A M H width y -> In e limit_events ->
  next_event y e -> y_step A M H y YEvent = Ok y' ->
  let a := h_axis (y_h y) in
  (h_state (y_h y) = hs_closing /\ e = limit_closed (up H a) a ->
     h_state (y_h y') = hs_closedWaitForStop /\ c_state (y_c y') = c_state (c_stop A M (y_c y)) /\
     c_st (y_c y') = c_st (c_stop A M (y_c y)) /\ queue A (y_c y') = queue A (c_stop A M (y_c y))) /\
  (~ (h_state (y_h y) = hs_closing /\ e = limit_closed (up H a) a) -> undisturbed y y').
Proof.
  intros R IE [HE PE] E a. apply reachable_inv in R. destruct R as (_ & _ & _ & _ & _ & I6 & (p & I7) & _).
  cbn [y_step] in E. rewrite HE in E. destruct (eb_pop (y_ev y)) as [b e0]. cbn [snd] in PE. subst e0.
  assert (NS : e <> motionStopped) by (cbn [limit_events In] in IE; intuition congruence).
  assert (NO : forall u i, e <> limit_opened u i).
  { intros u i. cbn [limit_events In] in IE. destruct u, i as [|[|[|[|i]]]]; cbn; intuition congruence. }
  unfold h_handle, sim in *. destruct (h_state (y_h y)) eqn:ES;
    repeat match type of E with context [event_eqb ?x ?z] => destruct (event_eqb_spec x z) as [EQ|NE] end; try congruence;
    try (destruct (in_range y (y_h y)); [|discriminate]; injection E as <-; split;
         [try (intros [? _]; congruence)|intros _; apply undisturbed_drain, I6]).
  - (* closing, own switch *)
    cbn [h_goTo h_enter with_state h_state] in E. destruct (in_range _ _); [|discriminate]. injection E as <-.
    split; [intros _; repeat split|]. intro NC. exfalso. apply NC. split; [reflexivity|].
    destruct I7 as (a0 & r & (_ & E1 & _ & E2 & _) & _). subst a. congruence.
  - (* closing, another event *)
    intros [_ EC]. exfalso. apply NE. destruct I7 as (a0 & r & (_ & E1 & _ & E2 & _) & _). subst a. congruence.
  - (* opening, own switch opens *)
    exfalso. destruct I7 as (a0 & r & (_ & E1 & _ & _ & E2 & _) & _). apply (NO (up H a0) a0). congruence.
Qed.

(** The position changes only by the steps given to the output stage. *)
Lemma position_lemma width y ops : reachable A M H width y -> forall y', y_run A M H y ops = Ok y' ->
  exists css, fst (fst (sg_run (c_sig (y_c y)) css)) = c_sig (y_c y') /\
    forall a, (a < 3)%nat -> nth a (c_pos (y_c y')) 0%Z = (nth a (c_pos (y_c y)) 0 + net (cmd_at a css))%Z.
Proof.
  intro R. apply reachable_inv in R. revert y R. induction ops as [|o ops IH]; intros y I y' E; cbn [y_run] in E.
  - injection E as <-. exists []. split; [reflexivity|]. intros a _. cbn. now rewrite Z.add_0_r.
  - unfold rbind in E. destruct (y_step A M H y o) as [y1|] eqn:E1; [|discriminate].
    destruct (IH y1 (inv_step A M H y o y1 I E1) y' E) as (css2 & G2 & P2).
    assert (X : exists css, fst (fst (sg_run (c_sig (y_c y)) css)) = c_sig (y_c y1) /\
      forall a, (a < 3)%nat -> nth a (c_pos (y_c y1)) 0%Z = (nth a (c_pos (y_c y)) 0 + net (cmd_at a css))%Z).
    { clear IH E G2 P2. destruct I as (I1 & I2 & I3 & I4 & I5 & I6 & (p & I7) & I8).
      assert (NIL : c_sig (y_c y1) = c_sig (y_c y) -> c_pos (y_c y1) = c_pos (y_c y) ->
        exists css, fst (fst (sg_run (c_sig (y_c y)) css)) = c_sig (y_c y1) /\
        forall a, (a < 3)%nat -> nth a (c_pos (y_c y1)) 0%Z = (nth a (c_pos (y_c y)) 0 + net (cmd_at a css))%Z).
      { intros S1 P1. exists []. split; [symmetry; exact S1|]. intros a _. rewrite P1. cbn. now rewrite Z.add_0_r. }
      destruct o as [| |raw|]; cbn [y_step] in E1.
      - destruct (sb_needsFilling (y_sb y)); [|injection E1 as <-; apply NIL; reflexivity].
        unfold rbind in E1. destruct (c_calc A M _ (y_c y)) as [[[c s]|]|] eqn:EC; try discriminate. injection E1 as <-.
        assert (ER : c_run A M (y_c y) [OCalc] = Ok (c, [s])).
        { cbn [c_run c_step]. unfold rbind. rewrite EC. reflexivity. }
        destruct (run_css A M [OCalc] _ _ _ I2 ER) as (css & _ & G & _ & _ & _ & P).
        exists css. unfold drain. cbn [y_c c_sig c_pos]. split; [exact G|]. apply P. unfold no_reset. cbn [In]. intuition discriminate.
      - injection E1 as <-. apply NIL; reflexivity.
      - destruct (sample_inputs (y_in y) raw (y_ev y)) as [l b]. injection E1 as <-. apply NIL; reflexivity.
      - destruct (eb_hasEvents (y_ev y)); [|injection E1 as <-; apply NIL; reflexivity].
        destruct (eb_pop (y_ev y)) as [b e]. destruct (h_handle A H (reading y) e (y_h y)) as [h acts].
        destruct (in_range y h); [|discriminate]. injection E1 as <-.
        destruct (do_all_frame A M acts (y_c y)) as [S1 P1]. unfold drain. apply NIL; cbn [y_c c_sig c_pos]; assumption. }
    destruct X as (css1 & G1 & P1). exists (css1 ++ css2). rewrite sg_run_app.
    destruct (sg_run (c_sig (y_c y)) css1) as [[g1 p1] r1]. cbn [fst] in G1. subst g1.
    destruct (sg_run (c_sig (y_c y1)) css2) as [[g2 p2] r2]. cbn [fst] in *. split; [exact G2|].
    intros a LA. rewrite (P2 a LA), (P1 a LA). unfold cmd_at. rewrite map_app.
    change (map (fun cs => nth a cs None)) with (cmd_at a). rewrite net_app. lia.
Qed.
End P.
