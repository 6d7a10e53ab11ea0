(** Model of lib/maincontroller/homing.{h,cpp}: the homing state machine, the
    calls it makes, and their effect on the motion controller. *)
Require Import List Arith NArith ZArith Bool.
From Verif Require Import Base EventModel InputModel Num MotionModel CtrlModel.
Import ListNotations.
Open Scope nat_scope.

(** lib/maincontroller/homingstate.h:11-20 *)
Inductive homingState := hs_lost | hs_stopping | hs_closing | hs_closedWaitForStop
  | hs_opening | hs_openedWaitForStop | hs_offsettingWaitForStop | hs_found.

(** The part of machineproperties.h homing reads (cnc3axis 45, 49-53, 71-77):
    per-axis lists; [hc_seq] = homingSequence (axis numbers, 3 = axis::nmbrAxis),
    its length = nmbrHomingAxis. *)
Record hcfg (D F : Type) := mkH {
  hc_seq : list nat; hc_dir : list bool;
  hc_hasMax : list bool; hc_maxIdx : list N; hc_hasMin : list bool; hc_minIdx : list N;
  hc_sMax : list F; hc_vHoming : F; hc_vSlow : F; hc_offset : list D }.
Arguments mkH {D F}. Arguments hc_seq {D F}. Arguments hc_dir {D F}. Arguments hc_hasMax {D F}.
Arguments hc_maxIdx {D F}. Arguments hc_hasMin {D F}. Arguments hc_minIdx {D F}. Arguments hc_sMax {D F}.
Arguments hc_vHoming {D F}. Arguments hc_vSlow {D F}. Arguments hc_offset {D F}.

(** homing.h:33-40 with its initialisers.  homingSequenceIndex is a uint32_t; it
    never exceeds nmbrHomingAxis + 1, so a nat stands for it.
    currentHomingAxisIndex always equals currentHomingAxis: one field. *)
Record homing := mkHoming {
  h_state : homingState; h_index : nat; h_axis : nat; h_switch : N; h_close : event; h_open : event }.
Definition h_init : homing := mkHoming hs_lost 0 3 0%N ev_none ev_none.

(** The calls homing makes on the motion controller and the event buffer.
    [DoMove]: flushMotionBuffer, getMachinePosition, set(position, axis, offset,
    speed) on a fresh simplifiedMotion, append, start (homing.cpp:204-216). *)
Inductive haction (D : Type) :=
| DoStop
| DoMove (axis : nat) (offset speed : D)
| DoPush (e : event).
Arguments DoStop {D}. Arguments DoMove {D}. Arguments DoPush {D}.

(** homing.cpp:50-66 and 72-88; axes other than Y and Z take the default branch *)
Definition close_event (max : bool) (a : nat) : event :=
  match max, a with
  | true, 1 => limitSwitchYMaxClosed | true, 2 => limitSwitchZMaxClosed | true, _ => limitSwitchXMaxClosed
  | false, 1 => limitSwitchYMinClosed | false, 2 => limitSwitchZMinClosed | false, _ => limitSwitchXMinClosed
  end.
Definition open_event (max : bool) (a : nat) : event :=
  match max, a with
  | true, 1 => limitSwitchYMaxOpened | true, 2 => limitSwitchZMaxOpened | true, _ => limitSwitchXMaxOpened
  | false, 1 => limitSwitchYMinOpened | false, 2 => limitSwitchZMinOpened | false, _ => limitSwitchXMinOpened
  end.

Section Homing.
Context {D F : Type} (A : arith D F) (H : hcfg D F).
Local Notation action := (haction D).

Definition with_state (h : homing) (s : homingState) : homing :=
  mkHoming s (h_index h) (h_axis h) (h_switch h) (h_close h) (h_open h).
Definition with_index (h : homing) (i : nat) : homing :=
  mkHoming (h_state h) i (h_axis h) (h_switch h) (h_close h) (h_open h).
Definition with_axis (h : homing) (a : nat) : homing :=
  mkHoming (h_state h) (h_index h) a (h_switch h) (h_close h) (h_open h).
Definition with_switch (h : homing) (n : N) (max : bool) : homing :=
  mkHoming (h_state h) (h_index h) (h_axis h) n (close_event max (h_axis h)) (open_event max (h_axis h)).

(** 42-96: [rest] = homingSequence from homingSequenceIndex on *)
Fixpoint h_scan (rest : list nat) (h : homing) : homing * bool :=
  match rest with
  | [] => (h, false)
  | a :: r =>
      let h := with_axis h a in
      if (a <? 3)%nat then
        if nth a (hc_dir H) false then
          if nth a (hc_hasMax H) false
          then (with_switch h (nth a (hc_maxIdx H) 0%N) true, true)
          else h_scan r (with_index h (h_index h + 1))
        else
          if nth a (hc_hasMin H) false
          then (with_switch h (nth a (hc_minIdx H) 0%N) false, true)
          else h_scan r (with_index h (h_index h + 1))
      else h_scan r (with_index h (h_index h + 1))
  end.
Definition h_selectAxis (h : homing) : homing * bool := h_scan (skipn (h_index h) (hc_seq H)) h.

(** 34-40 *)
Definition h_nextAxis (h : homing) : homing * bool :=
  if (h_index h <? length (hc_seq H))%nat
  then h_selectAxis (with_index h (h_index h + 1))
  else (h, false).

(** 194-272.  [-1 * sMax] is a float product, converted to double by the call;
    [-1 * homingOffset] is a double product. *)
Definition h_sMax (a : nat) : F := nth a (hc_sMax H) (nofZ (aF A) 0).
Definition h_offset (a : nat) : D := nth a (hc_offset H) (nofZ (aD A) 0).
Definition h_plus (a : nat) : D := f2d A (h_sMax a).
Definition h_minus (a : nat) : D := f2d A (nmul (aF A) (nofZ (aF A) (-1)) (h_sMax a)).
Definition h_enter (h : homing) : list action :=
  let a := h_axis h in
  let up := nth a (hc_dir H) false in
  match h_state h with
  | hs_lost => []
  | hs_stopping | hs_closedWaitForStop | hs_openedWaitForStop => [DoStop]
  | hs_closing => [DoMove a (if up then h_plus a else h_minus a) (f2d A (hc_vHoming H))]
  | hs_opening => [DoMove a (if up then h_minus a else h_plus a) (f2d A (hc_vSlow H))]
  | hs_offsettingWaitForStop =>
      [DoMove a (if up then nmul (aD A) (nofZ (aD A) (-1)) (h_offset a) else h_offset a)
              (f2d A (hc_vHoming H))]
  | hs_found => [DoPush homingCompleted]
  end.
(** 187-192; exitState (274-284) does nothing *)
Definition h_goTo (h : homing) (s : homingState) : homing * list action :=
  let h1 := with_state h s in (h1, h_enter h1).

(** 21-27, 107-113, 162-168; [closed i] = myInputs[i].isClosed() *)
Definition h_approach (closed : N -> bool) (h : homing) : homing * list action :=
  if closed (h_switch h) then h_goTo h hs_opening else h_goTo h hs_closing.

(** 14-32; [running] = theMotionController.isRunning() *)
Definition h_start (running : bool) (closed : N -> bool) (h : homing) : homing * list action :=
  let '(h1, found) := h_selectAxis (with_index h 0) in
  if found : bool then
    let '(h2, acts) := if running then h_goTo h1 hs_stopping else h_approach closed h1 in
    (h2, DoPush homingStarted :: acts)
  else (h1, [DoPush homingError]).

(** 98-182 *)
Definition h_handle (closed : N -> bool) (e : event) (h : homing) : homing * list action :=
  match h_state h with
  | hs_lost | hs_found => (h, [])
  | hs_stopping => if event_eqb e motionStopped then h_approach closed h else (h, [])
  | hs_closing => if event_eqb (h_close h) e then h_goTo h hs_closedWaitForStop else (h, [])
  | hs_closedWaitForStop => if event_eqb e motionStopped then h_goTo h hs_opening else (h, [])
  | hs_opening => if event_eqb (h_open h) e then h_goTo h hs_openedWaitForStop else (h, [])
  | hs_openedWaitForStop => if event_eqb e motionStopped then h_goTo h hs_offsettingWaitForStop else (h, [])
  | hs_offsettingWaitForStop =>
      if event_eqb e motionStopped then
        let '(h1, more) := h_nextAxis h in
        if more : bool then h_approach closed h1 else h_goTo h1 hs_found
      else (h, [])
  end.

(** handleEvents for a history of events, each with the debounced switch
    positions at that moment; the calls made, one list per event. *)
Fixpoint h_run (h : homing) (ins : list (event * (N -> bool))) : homing * list (list action) :=
  match ins with
  | [] => (h, [])
  | (e, c) :: r => let '(h1, a) := h_handle c e h in
                   let '(h2, l) := h_run h1 r in (h2, a :: l)
  end.

(** *** Effect on the motion controller; events it and homing push are appended
    to [c_events], in order. *)
Context (M : machine F).
(** motionctrl.cpp:258-263 *)
Definition c_getMachinePosition (c : ctrl F) : list F :=
  map (fun i => ndiv (aF A) (nofZ (aF A) (nth i (c_pos c) 0%Z)) (nthF A (m_stepsPerMm M) i)) axes.
Definition h_motion (c : ctrl F) (a : nat) (offset speed : D) : smotion D :=
  sm_set A (sm_default A) (c_getMachinePosition c) a offset speed.
Definition do_action (c : ctrl F) (x : action) : ctrl F :=
  match x with
  | DoStop => c_stop A M c
  | DoMove a offset speed =>
      let c1 := c_flush A c in c_start A M (c_append A M c1 (h_motion c1 a offset speed))
  | DoPush e => c_emit c [e]
  end.
Definition do_actions (c : ctrl F) (l : list action) : ctrl F := fold_left do_action l c.
End Homing.

(** lib_target/cnc3axis/general/machineproperties.h:45, 49-53, 71-77 *)
Definition cnc3axis_homing {D F} (A : arith D F) : hcfg D F :=
  mkH [2; 0; 1] [true; true; true]
      [true; true; true] [1; 2; 0]%N [false; false; false] [0; 2; 4]%N
      (map (nofZ (aF A)) [300; 160; 60]%Z) (nofZ (aF A) 10) (nofZ (aF A) 1)
      (map (nofZ (aD A)) [3; 3; 3]%Z).
(** lib_target/native/general/machineproperties.h:45, 50-53, 72-77: sMax, limits, vHoming,
    vHomingSlow, homingSequence (nmbrAxis entries), homingDirection, homingOffset *)
Definition native_homing {D F} (A : arith D F) : hcfg D F :=
  mkH [2; 0; 3] [true; true; true]
      [true; false; true] [1; 2; 0]%N [false; false; false] [0; 2; 4]%N
      (map (nofZ (aF A)) [600; 800; 130]%Z) (nofZ (aF A) 15) (nofZ (aF A) 1)
      (map (nofZ (aD A)) [-10; -10; -10]%Z).
