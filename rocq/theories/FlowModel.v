(** Step output in real time: the output timer (lib_target/cnc3axis/outputs/
    timers.cpp), its interrupt and the fill loop of src/cnc3axis/main.cpp, tick by
    tick. *)
Require Import List Arith NArith Bool.
From Verif Require Import Base EventModel StepModel.
Import ListNotations.
Open Scope N_scope.

(** [fl_count]: ticks until the timer expires; [fl_ld]: its reload register
    PIT_LDVAL1 (a value of X-1 gives a period of X ticks); [fl_pins]: GPIOC_PDOR;
    [fl_n]: how many records the motion controller has been asked for. *)
Record flow := mkFl { fl_b : stepbuf; fl_count : N; fl_ld : N; fl_pins : N; fl_n : nat }.

(** One tick of the output timer passes, or one pass of the fill loop is made. *)
Inductive flow_op := Tick | Pass.

Section Flow.
(** The records the motion controller delivers, one per call of
    calcNextStepperMotorSignals(). *)
Context (src : nat -> step).

(** Tick: on expiry the counter restarts from the reload register, and
    pit1_isr (main.cpp:98-103) reads a step, writes the register and the pins.
    Pass: main.cpp:164-169, the write with the interrupt disabled. *)
Definition flow_step (f : flow) (o : flow_op) : flow :=
  match o with
  | Tick =>
      if fl_count f <=? 1 then
        let '(b, s) := sb_read (fl_b f) in
        mkFl b (fl_ld f + 1) (sub32 (timeBefore s) 1) (signals s) (fl_n f)
      else mkFl (fl_b f) (fl_count f - 1) (fl_ld f) (fl_pins f) (fl_n f)
  | Pass =>
      if sb_needsFilling (fl_b f)
      then mkFl (sb_write (fl_b f) (src (fl_n f))) (fl_count f) (fl_ld f) (fl_pins f) (S (fl_n f))
      else f
  end.
(** The pins after every tick. *)
Fixpoint flow_run (f : flow) (ops : list flow_op) : flow * list N :=
  match ops with
  | [] => (f, [])
  | o :: r => let f1 := flow_step f o in
              let '(f2, l) := flow_run f1 r in
              (f2, match o with Tick => fl_pins f1 :: l | Pass => l end)
  end.
End Flow.

(** timers.cpp:20-29, 48-52 after enable(): PIT_LDVAL1 = 100; the step buffer
    as constructed (main.cpp:51); all pins low after reset. *)
Definition flow_init (b : stepbuf) : flow := mkFl b 101 100 0 0.
