(** Model of lib/event/event.h, event.cpp and eventbuffer.{h,cpp}. *)
Require Import List Arith NArith Bool String.
From Verif Require Import Base.
Import ListNotations.
Open Scope N_scope.

(** lib/event/event.h:11-55, in declaration order. *)
Inductive event : Set :=
| ev_none
| emergencyStopButtonPressed | emergencyStopButtonReleased
| feedHoldResumeButtonPressed | feedHoldResumeButtonReleased
| probeSwitchClosed | probeSwitchOpened
| limitSwitchXMinClosed | limitSwitchYMinClosed | limitSwitchZMinClosed
| limitSwitchXMaxClosed | limitSwitchYMaxClosed | limitSwitchZMaxClosed
| limitSwitchXMinOpened | limitSwitchYMinOpened | limitSwitchZMinOpened
| limitSwitchXMaxOpened | limitSwitchYMaxOpened | limitSwitchZMaxOpened
| stepBufferUnderflow | stepBufferOverflow
| motionAdded | motionCompleted | allMotionsCompleted | motionStarted
| stopRequested | motionStopped | motionBufferOverflow
| homingStarted | homingCompleted | homingError
| probingStarted | probingCompleted
| eventBufferUnderflow | eventBufferOverflow.

Definition event_eq_dec (a b : event) : {a = b} + {a <> b}.
Proof. decide equality. Defined.
Definition event_eqb (a b : event) : bool := if event_eq_dec a b then true else false.

(** lib/event/event.cpp:3-108 toString(event): switch with default "unknown". *)
Definition event_toString (e : event) : string :=
  (match e with
  | ev_none => "none"
  | emergencyStopButtonPressed => "emergencyStop button pressed"
  | emergencyStopButtonReleased => "emergencyStop button released"
  | feedHoldResumeButtonPressed => "feed Hold/Resume button pressed"
  | feedHoldResumeButtonReleased => "feed Hold/Resume button released"
  | probeSwitchClosed => "probeSwitch closed"
  | probeSwitchOpened => "probeSwitch opened"
  | limitSwitchXMinClosed => "limitSwitch XMin closed"
  | limitSwitchYMinClosed => "limitSwitch YMin closed"
  | limitSwitchZMinClosed => "limitSwitch ZMin closed"
  | limitSwitchXMaxClosed => "limitSwitch XMax closed"
  | limitSwitchYMaxClosed => "limitSwitch YMax closed"
  | limitSwitchZMaxClosed => "limitSwitch ZMax closed"
  | limitSwitchXMinOpened => "limitSwitch XMin opened"
  | limitSwitchYMinOpened => "limitSwitch YMin opened"
  | limitSwitchZMinOpened => "limitSwitch ZMin opened"
  | limitSwitchXMaxOpened => "limitSwitch XMax opened"
  | limitSwitchYMaxOpened => "limitSwitch YMax opened"
  | limitSwitchZMaxOpened => "limitSwitch ZMax opened"
  | motionAdded => "motion added"
  | motionCompleted => "motion completed"
  | allMotionsCompleted => "all motions completed"
  | motionStarted => "motion started"
  | stopRequested => "stop requested"
  | motionStopped => "motion stopped"
  | motionBufferOverflow => "motionBufferOverflow"
  | homingStarted => "homing started"
  | homingCompleted => "homing completed"
  | homingError => "homing error"
  | probingStarted => "probingStarted"
  | probingCompleted => "probingCompleted"
  | stepBufferUnderflow => "stepBufferUnderflow"
  | stepBufferOverflow => "stepBufferOverflow"
  | _ => "unknown"
  end)%string.

(** lib/event/eventbuffer.h: class eventBuffer { length{16U}; theEventBuffer[16];
    level, head, levelMax (uint32_t), lastError }. *)
Definition eb_length : N := 16.

Record evbuf := mkEvbuf {
  eb_arr : list event;
  eb_head : N;
  eb_level : N;
  eb_levelMax : N;
  eb_lastError : event }.

(** State of a statically allocated (zero-initialised) eventBuffer object. *)
Definition eb_zero : evbuf :=
  mkEvbuf (repeat ev_none 16) 0 0 0 ev_none.

(** lib/event/eventbuffer.cpp:3-8 initialize(): the array keeps its contents. *)
Definition eb_initialize (b : evbuf) : evbuf :=
  mkEvbuf (eb_arr b) 0 0 0 ev_none.

(** lib/event/eventbuffer.cpp:10-22 pushEvent(). *)
Definition eb_push (b : evbuf) (e : event) : evbuf :=
  if event_eqb ev_none e then b
  else if eb_level b <? eb_length then
    let arr := rset (eb_arr b) ((add32 (eb_head b) (eb_level b)) mod eb_length) e in
    let level := add32 (eb_level b) 1 in
    let levelMax := if eb_levelMax b <? level then level else eb_levelMax b in
    mkEvbuf arr (eb_head b) level levelMax (eb_lastError b)
  else
    mkEvbuf (eb_arr b) (eb_head b) (eb_level b) (eb_levelMax b) eventBufferOverflow.

(** lib/event/eventbuffer.cpp:24-34 popEvent(). *)
Definition eb_pop (b : evbuf) : evbuf * event :=
  if 0 <? eb_level b then
    (mkEvbuf (eb_arr b) ((add32 (eb_head b) 1) mod eb_length) (sub32 (eb_level b) 1)
             (eb_levelMax b) (eb_lastError b),
     rget ev_none (eb_arr b) (eb_head b))
  else
    (mkEvbuf (eb_arr b) (eb_head b) (eb_level b) (eb_levelMax b) eventBufferUnderflow, ev_none).

(** lib/event/eventbuffer.cpp:36-39 hasEvents(). *)
Definition eb_hasEvents (b : evbuf) : bool := 0 <? eb_level b.

(** lib/event/eventbuffer.cpp:41-45 getLevelMax(). *)
Definition eb_getLevelMax (b : evbuf) : evbuf * N :=
  (mkEvbuf (eb_arr b) (eb_head b) (eb_level b) 0 (eb_lastError b), eb_levelMax b).

(** lib/event/eventbuffer.cpp:47-51 getLastError(). *)
Definition eb_getLastError (b : evbuf) : evbuf * event :=
  (mkEvbuf (eb_arr b) (eb_head b) (eb_level b) (eb_levelMax b) ev_none, eb_lastError b).

(** One call of the public interface and its observable result. *)
Inductive eb_op : Set :=
| EbInit | EbPush (e : event) | EbPop | EbHas | EbLevelMax | EbLastError.

Inductive eb_out : Set :=
| OutUnit | OutEvent (e : event) | OutBool (b : bool) | OutNum (n : N).

Definition eb_step (b : evbuf) (o : eb_op) : evbuf * eb_out :=
  match o with
  | EbInit => (eb_initialize b, OutUnit)
  | EbPush e => (eb_push b e, OutUnit)
  | EbPop => let '(b', e) := eb_pop b in (b', OutEvent e)
  | EbHas => (b, OutBool (eb_hasEvents b))
  | EbLevelMax => let '(b', n) := eb_getLevelMax b in (b', OutNum n)
  | EbLastError => let '(b', e) := eb_getLastError b in (b', OutEvent e)
  end.

Fixpoint eb_run (b : evbuf) (ops : list eb_op) : evbuf * list eb_out :=
  match ops with
  | [] => (b, [])
  | o :: r => let '(b1, x) := eb_step b o in
              let '(b2, xs) := eb_run b1 r in (b2, x :: xs)
  end.
