(** Independent specification for the motion controller. *)
Require Import List Arith NArith ZArith Bool.
From Verif Require Import Base EventModel StepModel StepSpec Num MotionModel CtrlModel.
Import ListNotations.
Open Scope N_scope.

(** +1 / -1 / 0 for a command, and the sum over a sequence. *)
Definition zdir (c : option dir) : Z := match c with Some Fwd => 1 | Some Bwd => -1 | None => 0 end.
Definition net (l : list (option dir)) : Z := fold_right (fun c n => (zdir c + n)%Z) 0%Z l.
Definition net_dirs (l : list dir) : Z := fold_right (fun d n => (zdir (Some d) + n)%Z) 0%Z l.

(** Three positions after the commands of one tick. *)
Definition add_cmds (l : list Z) (cs : list (option dir)) : list Z :=
  map (fun i => nth i l 0 + zdir (nth i cs None))%Z [0; 1; 2]%nat.

(** *** The motion queue as a plain list.
    [aq_q]: motions waiting, oldest first; [aq_done]: motions completed so far. *)
Section Queue.
Context {D F : Type}.

Record aq := mkAQ { aq_q : list (smotion D); aq_done : list (smotion D); aq_state : motionState }.

(** One tick: a stopped controller does nothing; a running one may report that
    it came to a stop, and completes zero or more motions, oldest first, with one
    motionCompleted each.  Completing the last one stops the controller and is
    announced by allMotionsCompleted. *)
Definition aq_tick (a : aq) (es : list event) (a' : aq) : Prop :=
  match aq_state a with
  | ms_stopped => es = [] /\ a' = a
  | st =>
      exists (halt : bool) (fin : list (smotion D)),
        let es0 := if halt then [motionStopped] else [] in
        aq_q a = fin ++ aq_q a' /\ aq_done a' = aq_done a ++ fin /\
        if (length (aq_q a') =? 0)%nat
        then fin <> [] /\
             es = es0 ++ repeat motionCompleted (length fin - 1)
                    ++ [motionStopped; motionCompleted; allMotionsCompleted]
             /\ aq_state a' = ms_stopped
        else es = es0 ++ repeat motionCompleted (length fin)
             /\ aq_state a' = (if halt then ms_stopped else st)
  end.

Inductive aq_ticks : aq -> list event -> aq -> Prop :=
| aqt_one a es a' : aq_tick a es a' -> aq_ticks a es a'
| aqt_more a es1 b es2 c : aq_tick a es1 b -> aq_ticks b es2 c -> aq_ticks a (es1 ++ es2) c.

Definition aq_op (a : aq) (o : c_op D F) (es : list event) (a' : aq) : Prop :=
  match o with
  | OAppend m => if (length (aq_q a) <? 32)%nat
                 then es = [] /\ a' = mkAQ (aq_q a ++ [m]) (aq_done a) (aq_state a)
                 else es = [motionBufferOverflow] /\ a' = a
  | OStart => match aq_q a with
              | [] => es = [] /\ a' = a
              | _ => es = [motionStarted] /\ a' = mkAQ (aq_q a) (aq_done a) ms_running
              end
  | OStop => es = [stopRequested] /\ a' = mkAQ (aq_q a) (aq_done a) ms_stopping
  | OFlush => match aq_state a with
              | ms_stopped => es = [] /\ a' = mkAQ [] (aq_done a) ms_stopped
              | _ => es = [] /\ a' = a
              end
  | OReset | OOverride _ => es = [] /\ a' = a
  | OCalc => aq_ticks a es a'
  end.

Inductive aq_run : aq -> list (c_op D F) -> list event -> aq -> Prop :=
| aqr_nil a : aq_run a [] [] a
| aqr_cons a o es1 b r es2 c : aq_op a o es1 b -> aq_run b r es2 c -> aq_run a (o :: r) (es1 ++ es2) c.

Definition aq0 : aq := mkAQ [] [] ms_stopped.

(** stop() is only called while at least one motion is queued. *)
Fixpoint stops_guarded (A : arith D F) (M : machine F) (c : ctrl F) (ops : list (c_op D F)) : Prop :=
  match ops with
  | [] => True
  | o :: r => (match o with OStop => c_level c <> 0 | _ => True end) /\
              match c_step A M c o with Ok (c1, _) => stops_guarded A M c1 r | UB => True end
  end.

(** The motion held in a queue slot is the one that was appended: same kind,
    same peripheral settings and (except for kind [none]) same trajectory. *)
Definition holds (A : arith D F) (m : smotion D) (o : motion F) : Prop :=
  mo_type o = sm_type m /\
  mo_per o = mkPer (sm_cw m) (d2f A (sm_spindle m)) (sm_flood m) (sm_mist m) /\
  (sm_type m <> mt_none -> mo_traj o = traj_set A m).

(** The queued motions, oldest first. *)
Definition queue (A : arith D F) (c : ctrl F) : list (motion F) :=
  contents (mo_zero A) (c_items c) mb_length (c_head c) (c_level c).

Definition count_event (e : event) (l : list event) : nat :=
  length (filter (fun x => if event_eq_dec x e then true else false) l).
Definition count_appends (ops : list (c_op D F)) : nat :=
  length (filter (fun o => match o with OAppend _ => true | _ => false end) ops).
Definition no_flush (ops : list (c_op D F)) : Prop := ~ In OFlush ops.
Definition no_reset (ops : list (c_op D F)) : Prop := ~ In OReset ops.
End Queue.

(** *** Concrete machine and motions used in examples and counterexamples. *)
Section Concrete.
Context {D F : Type} (A : arith D F).
Local Notation fz z := (nofZ (aF A) z).
Local Notation dz z := (nofZ (aD A) z).

(** lib_target/cnc3axis/general/machineproperties.h:41-46, 69 *)
Definition cnc3axis : machine F :=
  mkMachine (fz 600) [fz 200; fz 200; fz 200] [fz (-200); fz (-200); fz (-200)]
            [fz 30; fz 30; fz 30] [fz 200; fz 200; fz 200] (fz 0).
(** machineproperties.h:21: 1.0F / 60000 *)
Definition tickWidth : F := ndiv (aF A) (fz 1) (fz 60000).

(** Linear motion along X over [d] mm at [v] mm/s from the origin. *)
Definition linX (d v : Z) : smotion D :=
  mkSM feedLinear (dz (Z.abs d)) [dz 0; dz 0; dz 0] [dz d; dz 0; dz 0] 3 3 (dz 0) (dz 0) (dz 0) (dz 0) (dz 0)
       (dz v) (dz 0) false false (dz 0) true.
(** Traverse along X over [d] mm, as the parser produces for G0. *)
Definition travX (d : Z) : smotion D :=
  mkSM traverse (dz (Z.abs d)) [dz 0; dz 0; dz 0] [dz d; dz 0; dz 0] 3 3 (dz 0) (dz 0) (dz 0) (dz 0) (dz 0)
       (ninf (aD A)) (dz 0) false false (dz 0) true.
(** Dwell of [t] seconds, as the parser produces for G4. *)
Definition dwell (t : Z) : smotion D :=
  mkSM pauseAndResume (dz 0) [dz 0; dz 0; dz 0] [dz 0; dz 0; dz 0] 3 3 (dz 0) (dz 0) (dz 0) (dz 0) (dz 0)
       (dz 0) (dz t) false false (dz 0) true.
End Concrete.

(** *** One axis following a list of commanded positions (in mm, one per tick):
    the commands issued and the final state. *)
Section Track.
Context {D F : Type} (A : arith D F) (M : machine F).
Fixpoint track (c : ctrl F) (i : nat) (mms : list F) : res (ctrl F * list (option dir)) :=
  match mms with
  | [] => Ok (c, [])
  | mm :: r =>
      d <- c_decide A M c i mm ;;
      c1 <- c_trackAxis A M c i mm ;;
      x <- track c1 i r ;;
      let '(c2, l) := x in Ok (c2, d :: l)
  end.
End Track.

(** *** [n] ticks of the output timer (calcNextStepperMotorSignals executes
    some number of ticks per call). *)
Section Ticks.
Context {D F : Type} (A : arith D F) (M : machine F).
Fixpoint ticks_run (n : nat) (c : ctrl F) : res (ctrl F) :=
  match n with O => Ok c | S n => c1 <- c_tick A M c ;; ticks_run n c1 end.
End Ticks.
Definition only_calc_append {D F} (ops : list (c_op D F)) : Prop :=
  forall o, In o ops -> o = OCalc \/ exists m, o = OAppend m.

(** The position (mm) the controller steers axis [i] to at its current time
    (motionctrl.cpp:215-224). *)
Definition setpoint {D F} (A : arith D F) (c : ctrl F) (i : nat) : F :=
  let o := c_getHead A c in mo_position A o i (p_s (aF A) (mo_prof o) (st_time (c_st c))).
