(** Model of lib/motion/motionctrl.cpp, motionbuffer.cpp, sampletime.cpp. *)
Require Import List Arith NArith ZArith Bool.
From Verif Require Import Base EventModel StepModel Num MotionModel.
Import ListNotations.
Open Scope N_scope.

(** motionstate.h *)
Inductive motionState := ms_running | ms_stopping | ms_stopped.

(** sampletime.h:28-31 *)
Record stime (F : Type) := mkST { st_time : F; st_offset : F; st_index : N; st_width : F }.
Arguments mkST {F}. Arguments st_time {F}. Arguments st_offset {F}. Arguments st_index {F}. Arguments st_width {F}.

(** motionbuffer.h: 32 items *)
Definition mb_length : N := 32.

(** motionctrl.h.  [c_events]: events pushed into theEventBuffer, newest last
    (the event queue itself is modelled in EventModel.v).  hold() and resume()
    are empty functions (motionctrl.cpp:56-58, 66-68); isOptimal is never read. *)
Record ctrl (F : Type) := mkC {
  c_state : motionState;
  c_fo : F;                      (* theOverrides.feedOverride *)
  c_st : stime F;
  c_items : list (motion F);     (* motionBuffer[32] *)
  c_head : N; c_level : N; c_levelMax : N;
  c_sig : sigs;
  c_pos : list Z;                (* machinePositionInSteps *)
  c_events : list event }.
Arguments mkC {F}. Arguments c_state {F}. Arguments c_fo {F}. Arguments c_st {F}. Arguments c_items {F}.
Arguments c_head {F}. Arguments c_level {F}. Arguments c_levelMax {F}. Arguments c_sig {F}.
Arguments c_pos {F}. Arguments c_events {F}.

Section Ctrl.
Context {D F : Type} (A : arith D F) (M : machine F).
Local Notation K := (aF A).
Local Notation zero := (nofZ (aF A) 0).

(** *** sampletime.cpp *)
(** 8-11 *)
Definition st_next (s : stime F) : stime F :=
  let i := add32 (st_index s) 1 in
  mkST (nadd K (nmul K (nofZ K (Z.of_N i)) (st_width s)) (st_offset s)) (st_offset s) i (st_width s).
(** 13-17 *)
Definition st_initialize (s : stime F) : stime F := mkST zero zero 0 (st_width s).
(** 19-21 *)
Definition st_isBeyond (s : stime F) (x : F) : bool := nltb K x (st_time s).
(** 23-26 *)
Definition st_initNext (s : stime F) : stime F := mkST (st_offset s) (st_offset s) 0 (st_width s).

(** *** setters for the record *)
Definition c_with_state (c : ctrl F) (s : motionState) : ctrl F :=
  mkC s (c_fo c) (c_st c) (c_items c) (c_head c) (c_level c) (c_levelMax c) (c_sig c) (c_pos c) (c_events c).
Definition c_with_st (c : ctrl F) (s : stime F) : ctrl F :=
  mkC (c_state c) (c_fo c) s (c_items c) (c_head c) (c_level c) (c_levelMax c) (c_sig c) (c_pos c) (c_events c).
Definition c_with_items (c : ctrl F) (l : list (motion F)) : ctrl F :=
  mkC (c_state c) (c_fo c) (c_st c) l (c_head c) (c_level c) (c_levelMax c) (c_sig c) (c_pos c) (c_events c).
Definition c_with_queue (c : ctrl F) (h l m : N) : ctrl F :=
  mkC (c_state c) (c_fo c) (c_st c) (c_items c) h l m (c_sig c) (c_pos c) (c_events c).
Definition c_with_sig (c : ctrl F) (s : sigs) : ctrl F :=
  mkC (c_state c) (c_fo c) (c_st c) (c_items c) (c_head c) (c_level c) (c_levelMax c) s (c_pos c) (c_events c).
Definition c_with_pos (c : ctrl F) (p : list Z) : ctrl F :=
  mkC (c_state c) (c_fo c) (c_st c) (c_items c) (c_head c) (c_level c) (c_levelMax c) (c_sig c) p (c_events c).
Definition c_emit (c : ctrl F) (e : list event) : ctrl F :=
  mkC (c_state c) (c_fo c) (c_st c) (c_items c) (c_head c) (c_level c) (c_levelMax c) (c_sig c) (c_pos c)
      (c_events c ++ e).

(** *** motionbuffer.cpp *)
Definition item (c : ctrl F) (i : N) : motion F := rget (mo_zero A) (c_items c) i.
(** 34-36 *)
Definition c_getHead (c : ctrl F) : motion F := item c (c_head c).
(** 14-16 *)
Definition c_isFull (c : ctrl F) : bool := mb_length <=? c_level c.
(** 10-12 *)
Definition c_isEmpty (c : ctrl F) : bool := c_level c =? 0.
(** 18-26: returns the index of the new item *)
Definition c_push (c : ctrl F) : ctrl F * N :=
  let w := add32 (c_head c) (c_level c) mod mb_length in
  let l := add32 (c_level c) 1 in
  (c_with_queue c (c_head c) l (N.max (c_levelMax c) l), w).
(** 28-32: no check for an empty buffer; the level wraps *)
Definition c_pop (c : ctrl F) : ctrl F :=
  c_with_queue c (add32 (c_head c) 1 mod mb_length) (sub32 (c_level c) 1) (c_levelMax c).
(** 42-45 *)
Definition c_flushBuffer (c : ctrl F) : ctrl F := c_with_queue c 0 0 (c_levelMax c).

(** *** motionctrl.cpp *)
(** 30-32 *)
Definition c_isRunning (c : ctrl F) : bool := match c_state c with ms_stopped => false | _ => true end.
(** 34-36 *)
Definition c_strategy (c : ctrl F) : motionStrategy :=
  match c_state c with ms_running => maximizeSpeed | _ => minimizeSpeed end.

Definition c_set_item (c : ctrl F) (i : N) (o : motion F) : ctrl F :=
  c_with_items c (rset (c_items c) i o).

(** 38-45 *)
Definition c_append (c : ctrl F) (m : smotion D) : ctrl F :=
  if negb (c_isFull c) then
    let '(c1, w) := c_push c in
    c_set_item c1 w (mo_set A M (item c1 w) m (c_fo c1) (c_strategy c1))
  else c_emit c [motionBufferOverflow].

(** storing into right.vEnd (109) / left.vStart (116) *)
Definition with_right_vEnd (o : motion F) (v : F) : motion F :=
  let p := mo_prof o in
  mkMo (mo_type o) (mo_traj o)
    (mkP (p_doneLength p) (p_doneDuration p) (p_left p) (p_mid p) (ad_setvEnd (p_right p) v)
         (p_vFeed p) (p_vMax p) (p_aMax p) (p_dMax p) (p_jMax p) (p_duration p) (p_tStop p)) (mo_per o).
Definition with_left_vStart (o : motion F) (v : F) : motion F :=
  let p := mo_prof o in
  mkMo (mo_type o) (mo_traj o)
    (mkP (p_doneLength p) (p_doneDuration p) (ad_setvStart (p_left p) v) (p_mid p) (p_right p)
         (p_vFeed p) (p_vMax p) (p_aMax p) (p_dMax p) (p_jMax p) (p_duration p) (p_tStop p)) (mo_per o).

(** 102-118; vJunction (120-122) always returns 0 *)
Definition c_optimizePair (c : ctrl F) (j : N) : ctrl F :=
  let left := add32 (c_head c) j mod mb_length in
  let right := add32 (c_head c) (j + 1) mod mb_length in
  let v := zero in
  let fo := c_fo c in
  let s := c_strategy c in
  let c1 := c_set_item c left (with_right_vEnd (item c left) v) in
  let c2 := if j =? 0
            then c_set_item c1 left
                   (mo_optimize A M (mo_optimize_at A M (item c1 left) fo s (st_time (c_st c1))) fo s)
            else c_set_item c1 left (mo_optimize A M (item c1 left) fo s) in
  let c3 := c_set_item c2 right (with_left_vStart (item c2 right) v) in
  c_set_item c3 right (mo_optimize A M (item c3 right) fo s).

(** 77-100.  For two or more motions: junctions 0..level-2, ascending when
    stopping, descending when running.  The loops use int32_t: a level that has
    wrapped below zero (2^31 and above) gives no iteration (the levels 2^31 and
    2^31+1, where level-2 overflows, are not distinguished: reaching them takes
    2^31 pops of an empty queue). *)
Definition junctions (c : ctrl F) : list N :=
  if 2147483648 <=? c_level c then [] else
  let up := map N.of_nat (seq 0 (N.to_nat (c_level c - 1))) in
  match c_strategy c with minimizeSpeed => up | maximizeSpeed => rev up end.
Definition c_optimize (c : ctrl F) : ctrl F :=
  if c_level c =? 0 then c
  else if c_level c =? 1 then
    c_set_item c (c_head c)
      (mo_optimize_at A M (c_getHead c) (c_fo c) (c_strategy c) (st_time (c_st c)))
  else fold_left c_optimizePair (junctions c) c.

(** 47-54 *)
Definition c_start (c : ctrl F) : ctrl F :=
  if negb (c_isEmpty c)
  then c_optimize (c_with_state (c_emit c [motionStarted]) ms_running)
  else c.
(** 60-64 *)
Definition c_stop (c : ctrl F) : ctrl F :=
  c_optimize (c_with_state (c_emit c [stopRequested]) ms_stopping).
(** 70-75 *)
Definition c_flush (c : ctrl F) : ctrl F :=
  if negb (c_isRunning c) then c_flushBuffer (c_with_st c (st_initialize (c_st c))) else c.
(** 252-256 *)
Definition c_resetPosition (c : ctrl F) : ctrl F := c_with_pos c (map (fun _ => 0%Z) axes).

(** 231-235: roundf, then conversion to int32_t (undefined when out of range) *)
Definition hysteresis : F := ndec K 5 2.
Definition needStepForward (c : ctrl F) (i : nat) (mm : F) : res bool :=
  let x := nmul K mm (nthF A (m_stepsPerMm M) i) in
  match ntoZ K (nround K (nsub K x hysteresis)) with
  | Some z => if int32_ok z then Ok (nth i (c_pos c) 0 <? z)%Z else UB
  | None => UB
  end.
(** 237-240 *)
Definition needStepBackward (c : ctrl F) (i : nat) (mm : F) : bool :=
  let x := nmul K mm (nthF A (m_stepsPerMm M) i) in
  nltb K (nround K (nadd K x hysteresis)) (nofZ K (nth i (c_pos c) 0%Z)).

(** 242-250; leaving the int32_t range is undefined *)
Definition c_stepAxis (c : ctrl F) (i : nat) (d : dir) : res (ctrl F) :=
  let z := (nth i (c_pos c) 0 + match d with Fwd => 1 | Bwd => -1 end)%Z in
  if int32_ok z
  then Ok (c_with_pos (c_with_sig c (sg_cmd (c_sig c) (N.of_nat i) (Some d))) (upd (c_pos c) i z))
  else UB.

(** 222-226: which step, if any, follows the commanded position [mm] *)
Definition c_decide (c : ctrl F) (i : nat) (mm : F) : res (option dir) :=
  f <- needStepForward c i mm ;;
  Ok (if f : bool then Some Fwd else if needStepBackward c i mm then Some Bwd else None).
Definition c_trackAxis (c : ctrl F) (i : nat) (mm : F) : res (ctrl F) :=
  d <- c_decide c i mm ;;
  match d with Some d => c_stepAxis c i d | None => Ok c end.
(** 215-229 *)
Definition c_moveAxis (o : motion F) (dist : F) (c : ctrl F) (i : nat) : res (ctrl F) :=
  if mo_isMoving A o i then c_trackAxis c i (mo_position A o i dist) else Ok c.
Fixpoint c_moveAxes (o : motion F) (dist : F) (c : ctrl F) (l : list nat) : res (ctrl F) :=
  match l with
  | [] => Ok c
  | i :: r => c1 <- c_moveAxis o dist c i ;; c_moveAxes o dist c1 r
  end.
Definition c_move (c : ctrl F) : res (ctrl F) :=
  let o := c_getHead c in
  c_moveAxes o (p_s K (mo_prof o) (st_time (c_st c))) c axes.

(** 187-207: the inner loop.  Every iteration but the last pops a motion, so
    [level + 1] iterations suffice; [fuel] is that number. *)
Fixpoint c_advance (fuel : nat) (c : ctrl F) : res (ctrl F) :=
  if st_isBeyond (c_st c) (p_duration (mo_prof (c_getHead c))) then
    if 1 <? c_level c then
      let st := c_st c in
      let off := nsub K (st_time st) (p_duration (mo_prof (c_getHead c))) in
      let c1 := c_pop (c_with_st c (mkST (st_time st) off (st_index st) (st_width st))) in
      let c2 := c_emit (c_with_st c1 (st_initNext (c_st c1))) [motionCompleted] in
      match fuel with O => UB | S f => c_advance f c2 end
    else
      let c1 := c_pop c in
      Ok (c_emit (c_with_state (c_with_st c1 (st_initialize (c_st c1))) ms_stopped)
                 [motionStopped; motionCompleted; allMotionsCompleted])
  else c_move c.

(** 180-208: one tick *)
Definition c_tick (c : ctrl F) : res (ctrl F) :=
  let c := c_with_sig c (sg_next (c_sig c)) in
  if c_isRunning c then
    let c := c_with_st c (st_next (c_st c)) in
    let c := if st_isBeyond (c_st c) (p_tStop (mo_prof (c_getHead c)))
             then c_emit (c_with_state c ms_stopped) [motionStopped] else c in
    c_advance (N.to_nat (c_level c)) c
  else Ok c.

(** 178-213: ticks until the signals change or the timeout; [None] = not within
    [fuel] ticks. *)
Fixpoint c_calc (fuel : nat) (c : ctrl F) : res (option (ctrl F * step)) :=
  match fuel with
  | O => Ok None
  | S f =>
      c1 <- c_tick c ;;
      if sg_isModified (c_sig c1) || sg_isTimedOut (c_sig c1)
      then let '(g, s) := sg_output (c_sig c1) in Ok (Some (c_with_sig c1 g, s))
      else c_calc f c1
  end.

(** motionctrl.h defaults + initialize (21-24) *)
Definition c_init (maxTicks : N) (width : F) : ctrl F :=
  mkC ms_stopped (nofZ K 1) (mkST zero zero 0 width) (repeat (mo_zero A) 32) 0 0 0
      (sg_setMaxTicks sg_zero maxTicks) (map (fun _ => 0%Z) axes) [].

(** The public interface as operations. *)
Inductive c_op :=
| OAppend (m : smotion D) | OStart | OStop | OFlush | OReset
| OOverride (fo : F)      (* theOverrides is a public member *)
| OCalc.

(** getMachinePosition (258-263) is a pure read. *)
Definition c_step (c : ctrl F) (o : c_op) : res (ctrl F * list step) :=
  match o with
  | OAppend m => Ok (c_append c m, [])
  | OStart => Ok (c_start c, [])
  | OStop => Ok (c_stop c, [])
  | OFlush => Ok (c_flush c, [])
  | OReset => Ok (c_resetPosition c, [])
  | OOverride fo => Ok (mkC (c_state c) fo (c_st c) (c_items c) (c_head c) (c_level c) (c_levelMax c)
                            (c_sig c) (c_pos c) (c_events c), [])
  | OCalc => r <- c_calc (N.to_nat (N.max 1 (sg_maxTicks (c_sig c)))) c ;;
             match r with Some (c', s) => Ok (c', [s]) | None => UB end
  end.
Fixpoint c_run (c : ctrl F) (ops : list c_op) : res (ctrl F * list step) :=
  match ops with
  | [] => Ok (c, [])
  | o :: r => x <- c_step c o ;; let '(c1, s1) := x in
              y <- c_run c1 r ;; let '(c2, s2) := y in Ok (c2, s1 ++ s2)
  end.
End Ctrl.
Arguments c_op : clear implicits.
