(** Concrete runs of the step output in real time. *)
Require Import List Arith NArith ZArith Bool Lia ZifyBool ZifyNat ZifyN.
From Verif Require Import Base EventModel EventProofs StepModel StepSpec Num NumSF MotionModel CtrlModel CtrlSpec FlowModel FlowSpec.
Import ListNotations.
Open Scope N_scope.

Fixpoint promptb (src : nat -> step) (k since : N) (f : flow) (ops : list flow_op) : bool :=
  match ops with
  | [] => true
  | o :: r =>
      let f1 := flow_step src f o in
      let s1 := match o with Tick => since + 1 | Pass => since end in
      (s1 <=? k) && promptb src k (if sb_needsFilling (fl_b f1) then s1 else 0) f1 r
  end.
Lemma promptb_ok src k ops : forall since f, promptb src k since f ops = true -> prompt src k since f ops.
Proof.
  induction ops as [|o r IH]; intros since f E; cbn [promptb prompt] in *; [exact I|].
  apply andb_prop in E as [E1 E2]. split; [lia|]. apply IH, E2.
Qed.

Fixpoint prefixb (a b : list N) : bool :=
  match a, b with
  | [], _ => true
  | x :: a, y :: b => (x =? y) && prefixb a b
  | _, [] => false
  end.
Lemma prefixb_ok a : forall b x, b = a ++ x -> prefixb a b = true.
Proof. induction a as [|y a IH]; intros b x ->; cbn; [reflexivity|]. rewrite N.eqb_refl. cbn. eapply IH; reflexivity. Qed.

Definition fewb (css : list (list (option dir))) : bool :=
  forallb (fun i => (length (filter busy (firstn 750 (skipn i css))) <=? 83)%nat) (seq 0 (length css)).
Lemma fewb_ok css : fewb css = true -> few css.
Proof.
  intros E i. unfold fewb in E. rewrite forallb_forall in E.
  destruct (le_lt_dec (length css) i) as [L|L].
  - rewrite skipn_all2 by exact L. cbn. lia.
  - specialize (E i). rewrite in_seq in E. specialize (E ltac:(lia)). lia.
Qed.

(** One step on X every 50 ticks. *)
Definition slow_css : list (list (option dir)) := concat (repeat ([Some Fwd] :: repeat [] 49) 30).
Lemma slow_few : few slow_css.
Proof. apply fewb_ok. vm_compute. reflexivity. Qed.

(** 12 ms of another task, then everything in time again. *)
Definition late_ops : list flow_op := repeat Pass 10 ++ repeat Tick 700 ++ repeat Pass 50 ++ repeat Tick 1000.
Lemma late_lemma : let recs := recs_of 375 slow_css in
  let '(f, pins) := flow_run (stream recs) (flow_init sb0) late_ops in
  promptb (stream recs) 1500 0 (flow_init sb0) late_ops = true /\ (fl_n f <=? length recs)%nat = true /\
  (4 * 1000 * 1000 * 1000 <? fl_count f) = true /\ sb_lastError (fl_b f) = ev_none /\ prefixb pins (repeat 0 952 ++ pins_of 375 slow_css) = false.
Proof. vm_compute. repeat split. Qed.

(** Everything in time. *)
Definition good_ops : list flow_op := concat (repeat (repeat Pass 50 ++ repeat Tick 300) 6).
Lemma good_run : let recs := recs_of 375 slow_css in
  let '(f, pins) := flow_run (stream recs) (flow_init sb0) good_ops in
  promptb (stream recs) 376 0 (flow_init sb0) good_ops = true /\ (fl_n f <=? length recs)%nat = true /\
  length pins = 1800%nat /\ pulses 0 false pins = repeat Fwd 17.
Proof. vm_compute. repeat split. Qed.

(** A traverse with three axes, as the parser produces for G0 X48 Y45 Z36 (75 mm). *)
Section Dense.
Context {D F : Type} (A : arith D F).
Local Notation dz z := (nofZ (aD A) z).
Definition trav3 : smotion D :=
  mkSM traverse (dz 75) [dz 0; dz 0; dz 0] [dz 48; dz 45; dz 36] 3 3 (dz 0) (dz 0) (dz 0) (dz 0) (dz 0)
       (ninf (aD A)) (dz 0) false false (dz 0) true.
(** The machine of cnc3axis with 60 times its acceleration and 10000 times its
    jerk, so that it reaches its speed within few ticks (the run with the original
    values takes 20000). *)
Definition quick3axis : machine F :=
  let M := cnc3axis A in let fz z := nofZ (aF A) z in
  mkMachine (fz 6000000%Z) [fz 12000%Z; fz 12000%Z; fz 12000%Z] [fz (-12000)%Z; fz (-12000)%Z; fz (-12000)%Z] (m_vMax M) (m_stepsPerMm M) (m_minS M).
End Dense.
(** One pass after every other tick, later after every fourth, then none for 8 ms. *)
Definition eager_ops : list flow_op :=
  concat (repeat [Tick; Tick; Pass] 500) ++ concat (repeat [Tick; Tick; Tick; Tick; Pass] 50) ++ repeat Tick 500.
Definition dense_check (r : res (ctrl sf * list step)) : bool :=
  match r with
  | Ok (c, recs) =>
     let '(f, pins) := flow_run (stream recs) (flow_init sb0) eager_ops in
     event_eqb (sb_lastError (fl_b f)) stepBufferOverflow && (fl_n f <=? length recs)%nat &&
     negb (prefixb pins (repeat 0 952 ++ replay 0 recs))
  | UB => false
  end.
Lemma dense_check_lemma r : dense_check r = true ->
  exists c recs, r = Ok (c, recs) /\
  let '(f, pins) := flow_run (stream recs) (flow_init sb0) eager_ops in
  (fl_n f <= length recs)%nat /\ sb_lastError (fl_b f) = stepBufferOverflow /\
  ~ exists x, repeat 0 952 ++ replay 0 recs = pins ++ x.
Proof.
  unfold dense_check. destruct r as [[c recs]|]; [|discriminate].
  generalize eager_ops. intros ops E. exists c, recs. split; [reflexivity|].
  destruct (flow_run (stream recs) (flow_init sb0) ops) as [f pins].
  apply andb_prop in E as [E E3]. apply andb_prop in E as [E1 E2].
  split; [lia|]. split; [destruct (event_eqb_spec (sb_lastError (fl_b f)) stepBufferOverflow); [assumption|discriminate]|].
  intros (x & EX). apply prefixb_ok in EX. rewrite EX in E3. discriminate.
Qed.
Lemma dense_check_ok X :
  dense_check (c_run (sf_arith X) (quick3axis (sf_arith X)) (c_init (sf_arith X) 375 (tickWidth (sf_arith X)))
    (OAppend (trav3 (sf_arith X)) :: OStart :: repeat OCalc 510)) = true.
Proof. vm_cast_no_check (eq_refl true). Qed.
Definition overflow_lemma X := dense_check_lemma _ (dense_check_ok X).

(** Statements. *)
Lemma late_refuted :
  exists css ops, few css /\ let recs := recs_of 375 css in
    prompt (stream recs) 1500 0 (flow_init sb0) ops /\
    let '(f, pins) := flow_run (stream recs) (flow_init sb0) ops in
    (fl_n f <= length recs)%nat /\ sb_lastError (fl_b f) = ev_none /\ 4000000000 < fl_count f /\
    ~ exists x, repeat 0 952 ++ pins_of 375 css = pins ++ x.
Proof.
  exists slow_css, late_ops. split; [apply slow_few|]. pose proof late_lemma as L. cbv zeta in *.
  revert L. generalize late_ops slow_css. intros ops css.
  destruct (flow_run (stream (recs_of 375 css)) (flow_init sb0) ops) as [f pins]. intros (P & N0 & C & E & X).
  split; [now apply promptb_ok|]. split; [lia|]. split; [exact E|]. split; [lia|].
  intros (x & EX). apply prefixb_ok in EX. congruence.
Qed.
Lemma good_lemma : few slow_css /\ let recs := recs_of 375 slow_css in
  prompt (stream recs) 376 0 (flow_init sb0) good_ops /\
  let '(f, pins) := flow_run (stream recs) (flow_init sb0) good_ops in
  (fl_n f <= length recs)%nat /\ length pins = 1800%nat /\ pulses 0 false pins = repeat Fwd 17.
Proof.
  split; [apply slow_few|]. pose proof good_run as L. cbv zeta in *. revert L. generalize good_ops slow_css. intros ops css.
  destruct (flow_run (stream (recs_of 375 css)) (flow_init sb0) ops) as [f pins]. intros (P & N0 & C).
  split; [now apply promptb_ok|]. split; [lia|exact C].
Qed.
Definition fast_css : list (list (option dir)) :=
  concat (repeat (([Some Fwd] :: repeat [] 9) ++ ([Some Bwd] :: repeat [] 9)) 50).
Lemma fast_lemma : few fast_css /\ (253 <= length (recs_of 375 fast_css))%nat.
Proof.
  split; [apply fewb_ok; vm_compute; reflexivity|].
  assert (E : (253 <=? length (recs_of 375 fast_css))%nat = true) by (vm_compute; reflexivity). lia.
Qed.
