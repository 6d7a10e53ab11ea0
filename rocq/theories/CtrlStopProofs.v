(** Stopping with motions queued leaves the queue usable. *)
Require Import List Arith NArith ZArith Bool Lia ZifyBool ZifyNat ZifyN.
From Verif Require Import Base BaseProofs EventModel StepModel StepSpec Num MotionModel CtrlModel CtrlSpec CtrlProofs CtrlQueueProofs NumSF.
Import ListNotations.
Open Scope N_scope.
Section Stop.
Context {D F : Type} (A : arith D F) (M : machine F).
Lemma guarded_usable m width ops (c : ctrl F) recs :
  stops_guarded A M (c_init A m width) ops -> c_run A M (c_init A m width) ops = Ok (c, recs) ->
  c_level c <= 32 /\ (c_state c <> ms_stopped -> c_level c <> 0) /\
  forall x, c_level c < 32 -> let c' := c_append A M c x in
    c_level c' = c_level c + 1 /\ c_events c' = c_events c /\
    exists o, queue A c' = queue A c ++ [o] /\ holds A x o.
Proof.
  intros G H. destruct (run_rel A M ops _ aq0 c recs (rel_init A m width) G H) as (es & a & _ & Q & _).
  pose proof (rel_level A _ _ Q) as HL. pose proof Q as (Q1 & Q2 & Q3 & Q4 & Q5 & Q6). split; [exact Q3|]. split.
  { intros NS Z. rewrite Q5 in NS. apply (Q6 NS). apply length_zero_iff_nil. lia. }
  intros x LT. cbv zeta. unfold c_append, c_isFull, mb_length. replace (32 <=? c_level c) with false by lia. cbn [negb c_push].
  unfold add32, w32, mb_length. rewrite (N.mod_small (c_head c + c_level c)) by (unfold two32; lia). rewrite (N.mod_small (c_level c + 1)) by (unfold two32; lia).
  cbn [c_set_item c_with_items c_with_queue c_level c_events]. split; [reflexivity|]. split; [reflexivity|]. eexists.
  split; [|apply holds_set]. unfold queue. cbn [c_set_item c_with_items c_with_queue c_items c_head c_level]. unfold mb_length. rewrite contents_push by lia. reflexivity.
Qed.
End Stop.

Definition guarded_check X : bool := let A := sf_arith X in let M := cnc3axis A in
  let step (r : res (ctrl sf * list step)) o := match r with Ok (c, _) => c_step A M c o | UB => UB end in
  let r1 := fold_left step [OAppend (linX A 10 10); OStart; OCalc] (Ok (c_init A 375 (tickWidth A), [])) in
  let r2 := fold_left step [OStop; OCalc] r1 in
  match r1, r2 with Ok (c1, _), Ok (c2, _) => negb (c_level c1 =? 0) && (c_level c2 =? 1) && match c_state c2 with ms_stopping => true | _ => false end | _, _ => false end.
Lemma guarded_check_true X : guarded_check X = true.
Proof. vm_compute. reflexivity. Qed.
Lemma guarded_stop X : let A := sf_arith X in let M := cnc3axis A in let ops := [OAppend (linX A 10 10); OStart; OCalc; OStop; OCalc] in
  stops_guarded A M (c_init A 375 (tickWidth A)) ops /\
  exists c recs, c_run A M (c_init A 375 (tickWidth A)) ops = Ok (c, recs) /\ c_level c = 1 /\ c_state c = ms_stopping.
Proof.
  cbv zeta. pose proof (guarded_check_true X) as H. unfold guarded_check in H. set (A := sf_arith X) in *. set (M := cnc3axis A) in *. set (k := c_init A 375 (tickWidth A)) in *.
  cbn [fold_left] in H. cbn [stops_guarded c_run].
  destruct (c_step A M k (OAppend (linX A 10 10))) as [[c1 r1]|]; [|discriminate]. cbn [rbind].
  destruct (c_step A M c1 OStart) as [[c2 r2]|]; [|discriminate]. cbn [rbind].
  destruct (c_step A M c2 OCalc) as [[c3 r3]|]; [|discriminate]. cbn [rbind].
  destruct (c_step A M c3 OStop) as [[c4 r4]|]; [|discriminate]. cbn [rbind].
  destruct (c_step A M c4 OCalc) as [[c5 r5]|]; [|discriminate]. cbn [rbind].
  apply andb_prop in H. destruct H as (H & H3). apply andb_prop in H. destruct H as (H1 & H2). split.
  - repeat split. lia.
  - eexists _, _. split; [reflexivity|]. split; [lia|]. destruct (c_state c5); try discriminate H3. reflexivity.
Qed.
