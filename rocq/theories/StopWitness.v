(** Runs on the 3-axis machine, in binary arithmetic, that are stopped and resumed. *)
Require Import List Arith NArith ZArith Bool Lia ZifyBool ZifyN.
From Verif Require Import Base EventModel StepModel StepSpec Num NumSF MotionModel CtrlModel CtrlSpec.
Import ListNotations.
Open Scope N_scope.

(** Traverse along X over [n] thousandths of a millimetre, from the origin. *)
Definition travMicro {D F} (A : arith D F) (n : Z) : smotion D :=
  mkSM traverse (ndec (aD A) n 3) [nofZ (aD A) 0; nofZ (aD A) 0; nofZ (aD A) 0] [ndec (aD A) n 3; nofZ (aD A) 0; nofZ (aD A) 0] 3 3
       (nofZ (aD A) 0) (nofZ (aD A) 0) (nofZ (aD A) 0) (nofZ (aD A) 0) (nofZ (aD A) 0)
       (ninf (aD A)) (nofZ (aD A) 0) false false (nofZ (aD A) 0) true.
Definition started {D F} (A : arith D F) (n : Z) (k : nat) : list (c_op D F) := OAppend (travMicro A n) :: OStart :: repeat OCalc k.

(** A check [f] of the state after a run. *)
Definition after {F} (f : ctrl F -> bool) (r : res (ctrl F * list step)) : bool := match r with Ok (c, _) => f c | UB => false end.
Definition is_ub {T} (r : res T) : bool := match r with UB => true | Ok _ => false end.
Lemma after_ok {F} (f : ctrl F -> bool) r : after f r = true -> exists c recs, r = Ok (c, recs) /\ f c = true.
Proof. destruct r as [[c recs]|]; cbn; [eauto|discriminate]. Qed.
Lemma is_ub_ok {T} (r : res T) : is_ub r = true -> r = UB.
Proof. destruct r; [discriminate|reflexivity]. Qed.
Definition in_state {F} (s : motionState) (c : ctrl F) : bool :=
  match s, c_state c with ms_stopped, ms_stopped | ms_running, ms_running | ms_stopping, ms_stopping => true | _, _ => false end.
Lemma in_state_ok {F} s (c : ctrl F) : in_state s c = true -> c_state c = s.
Proof. unfold in_state. destruct s, (c_state c); try discriminate; reflexivity. Qed.
Definition at_x {F} (x : Z) (c : ctrl F) : bool := (nth 0 (c_pos c) 0 =? x)%Z.

(** 0.015 mm, stopped while it slows down. *)
Lemma braking_check X : let A := sf_arith X in let M := cnc3axis A in
  after (fun c => in_state ms_running c && at_x 2 c && is_ub (c_run A M c (OStop :: repeat OCalc 4)))
        (c_run A M (c_init A 375 (tickWidth A)) (started A 15 3)) = true.
Proof. vm_cast_no_check (eq_refl true). Qed.
Lemma stop_braking_lemma X : let A := sf_arith X in let M := cnc3axis A in
  exists c recs, c_run A M (c_init A 375 (tickWidth A)) (started A 15 3) = Ok (c, recs) /\ c_state c = ms_running /\ nth 0 (c_pos c) 0%Z = 2%Z /\
    c_run A M c (OStop :: repeat OCalc 4) = UB.
Proof.
  intros A M. destruct (after_ok _ _ (braking_check X)) as (c & recs & E & H). exists c, recs. split; [exact E|].
  apply andb_prop in H as [H H3]. apply andb_prop in H as [H1 H2].
  split; [apply in_state_ok; exact H1|]. split; [unfold at_x in H2; lia|apply is_ub_ok; exact H3].
Qed.

(** 0.025 mm, stopped while it still speeds up. *)
Lemma overshoot_check X : let A := sf_arith X in let M := cnc3axis A in
  after (fun c => in_state ms_running c && at_x 2 c &&
           after (fun c' => in_state ms_stopped c' && at_x 6 c' && (c_level c' =? 0)) (c_run A M c (OStop :: repeat OCalc 20)))
        (c_run A M (c_init A 375 (tickWidth A)) (started A 25 3)) = true.
Proof. vm_cast_no_check (eq_refl true). Qed.
Lemma stop_overshoot_lemma X : let A := sf_arith X in let M := cnc3axis A in
  exists c recs c' recs', c_run A M (c_init A 375 (tickWidth A)) (started A 25 3) = Ok (c, recs) /\ c_state c = ms_running /\
    nth 0 (c_pos c) 0%Z = 2%Z /\ c_run A M c (OStop :: repeat OCalc 20) = Ok (c', recs') /\
    c_state c' = ms_stopped /\ c_level c' = 0 /\ nth 0 (c_pos c') 0%Z = 6%Z.
Proof.
  intros A M. destruct (after_ok _ _ (overshoot_check X)) as (c & recs & E & H).
  apply andb_prop in H as [H H3]. apply andb_prop in H as [H1 H2]. destruct (after_ok _ _ H3) as (c' & recs' & E' & H').
  apply andb_prop in H' as [H' H6]. apply andb_prop in H' as [H4 H5].
  exists c, recs, c', recs'. split; [exact E|]. split; [apply in_state_ok; exact H1|]. split; [unfold at_x in H2; lia|].
  split; [exact E'|]. split; [apply in_state_ok; exact H4|]. split; [lia|unfold at_x in H5; lia].
Qed.

(** 0.015 mm, stopped later in the slowing down: it does come to rest, but cannot go on. *)
Lemma resume_check X : let A := sf_arith X in let M := cnc3axis A in
  after (fun c => in_state ms_running c &&
           after (fun c' => in_state ms_stopped c' && (c_level c' =? 1) && is_ub (c_run A M c' [OStart; OCalc])) (c_run A M c (OStop :: repeat OCalc 8)))
        (c_run A M (c_init A 375 (tickWidth A)) (started A 15 5)) = true.
Proof. vm_cast_no_check (eq_refl true). Qed.
Lemma resume_lemma X : let A := sf_arith X in let M := cnc3axis A in
  exists c recs c' recs', c_run A M (c_init A 375 (tickWidth A)) (started A 15 5) = Ok (c, recs) /\ c_state c = ms_running /\
    c_run A M c (OStop :: repeat OCalc 8) = Ok (c', recs') /\ c_state c' = ms_stopped /\ c_level c' = 1 /\
    c_run A M c' [OStart; OCalc] = UB.
Proof.
  intros A M. destruct (after_ok _ _ (resume_check X)) as (c & recs & E & H).
  apply andb_prop in H as [H1 H3]. destruct (after_ok _ _ H3) as (c' & recs' & E' & H').
  apply andb_prop in H' as [H' H6]. apply andb_prop in H' as [H4 H5].
  exists c, recs, c', recs'. split; [exact E|]. split; [apply in_state_ok; exact H1|].
  split; [exact E'|]. split; [apply in_state_ok; exact H4|]. split; [lia|apply is_ub_ok; exact H6].
Qed.
