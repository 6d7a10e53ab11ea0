(** Model of lib/outputs_stepper_motor: step.h, stepbuffer.{h,cpp},
    stepsignals.{h,cpp}; the timer interrupt and the fill loop of
    src/cnc3axis/main.cpp. *)
Require Import List Arith NArith Bool.
From Verif Require Import Base EventModel.
Import ListNotations.
Open Scope N_scope.

(** step.h: struct step *)
Record step := mkStep { timeBefore : N; signals : N }.

(** ** stepBuffer *)
(** stepbuffer.h:32 *)
Definition sb_length : N := 256.

(** stepbuffer.h:32-42; the array of structs is kept as two arrays. *)
Record stepbuf := mkSb {
  sb_time : list N; sb_sig : list N;
  sb_head : N; sb_level : N; sb_total : N;
  sb_minTotal : N; sb_minLevel : N;
  sb_lastError : event }.

(** stepbuffer.cpp:66-69 *)
Definition sb_needsFilling (b : stepbuf) : bool :=
  (sb_level b <? sb_minLevel b) || (sb_total b <? sb_minTotal b).

(** stepbuffer.cpp:30-41.  (256 + head + level - 2) cannot underflow. *)
Definition sb_write (b : stepbuf) (s : step) : stepbuf :=
  if sb_level b <? sb_length then
    let iSig := (add32 (sb_head b) (sb_level b)) mod sb_length in
    let iTime := (sub32 (add32 (add32 sb_length (sb_head b)) (sb_level b)) 2) mod sb_length in
    mkSb (rset (sb_time b) iTime (timeBefore s)) (rset (sb_sig b) iSig (signals s))
         (sb_head b) (add32 (sb_level b) 1) (add32 (sb_total b) (timeBefore s))
         (sb_minTotal b) (sb_minLevel b) (sb_lastError b)
  else
    mkSb (sb_time b) (sb_sig b) (sb_head b) (sb_level b) (sb_total b)
         (sb_minTotal b) (sb_minLevel b) stepBufferOverflow.

(** stepbuffer.cpp:43-56 *)
Definition sb_read (b : stepbuf) : stepbuf * step :=
  if 0 <? sb_level b then
    let t := rget 0 (sb_time b) (sb_head b) in
    let s := rget 0 (sb_sig b) (sb_head b) in
    (mkSb (sb_time b) (sb_sig b) ((add32 (sb_head b) 1) mod sb_length) (sub32 (sb_level b) 1)
          (sub32 (sb_total b) t) (sb_minTotal b) (sb_minLevel b) (sb_lastError b),
     mkStep t s)
  else
    (mkSb (sb_time b) (sb_sig b) (sb_head b) (sb_level b) (sb_total b)
          (sb_minTotal b) (sb_minLevel b) stepBufferUnderflow,
     mkStep 1000 1000).

(** stepbuffer.cpp:71-75 *)
Definition sb_getLastError (b : stepbuf) : stepbuf * event :=
  (mkSb (sb_time b) (sb_sig b) (sb_head b) (sb_level b) (sb_total b)
        (sb_minTotal b) (sb_minLevel b) ev_none, sb_lastError b).

(** stepbuffer.cpp:25-27: the fill loop of initialize(); [None] when it has
    not terminated within the fuel. minimumLevel = 0 divides by zero in C++ as
    soon as the loop body runs; the callers below require it to be positive. *)
Fixpoint sb_initfill (fuel : nat) (b : stepbuf) : option stepbuf :=
  if sb_needsFilling b then
    match fuel with
    | O => None
    | S f => sb_initfill f (sb_write b (mkStep (sb_minTotal b / sb_minLevel b) 0))
    end
  else Some b.

(** stepbuffer.cpp:20-28 initialize(), as run on an object with given arrays. *)
Definition sb_initialize (fuel : nat) (b : stepbuf) : option stepbuf :=
  sb_initfill fuel (mkSb (sb_time b) (sb_sig b) 0 0 0 (sb_minTotal b) (sb_minLevel b) (sb_lastError b)).

(** stepbuffer.cpp:16-18 constructor of a static object (zeroed array). *)
Definition sb_construct (fuel : nat) (minTotal minLevel : N) : option stepbuf :=
  sb_initialize fuel (mkSb (repeat 0 256) (repeat 0 256) 0 0 0 minTotal minLevel ev_none).

(** Operations. *)
Inductive sb_op := SbWrite (s : step) | SbRead.

Fixpoint sb_run (b : stepbuf) (ops : list sb_op) : stepbuf * list step :=
  match ops with
  | [] => (b, [])
  | SbWrite s :: r => sb_run (sb_write b s) r
  | SbRead :: r => let '(b1, x) := sb_read b in
                   let '(b2, xs) := sb_run b1 r in (b2, x :: xs)
  end.

(** ** Fill loop of src/cnc3axis/main.cpp:164-169 with timer interrupts.
    [FIter s]: one iteration of the while loop (test needsFilling, compute the
    next step [s], write it); [FIrq]: timer interrupt pit1_isr (main.cpp:98-103). *)
Inductive fill_op := FIter (s : step) | FIrq.

Definition fill_step (b : stepbuf) (o : fill_op) : stepbuf :=
  match o with
  | FIter s => if sb_needsFilling b then sb_write b s else b
  | FIrq => fst (sb_read b)
  end.

(** ** stepSignals *)
(** lib_target/cnc3axis/general/axis.h: nmbrAxis *)
Definition nmbrAxis : N := 3.

(** stepsignals.h:24-29 *)
Record sigs := mkSigs {
  sg_dirSetup : N; sg_stepRise : N; sg_stepFall : N;
  sg_lastOutput : N; sg_ticks : N; sg_maxTicks : N }.

Definition sg_zero : sigs := mkSigs 0 0 0 0 0 0.

(** stepsignals.cpp:4-6 *)
Definition sg_isModified (g : sigs) : bool := negb (sg_dirSetup g =? sg_lastOutput g).

(** stepsignals.cpp:8-12 *)
Definition sg_next (g : sigs) : sigs :=
  mkSigs (sg_stepRise g) (sg_stepFall g) (sg_stepFall g) (sg_lastOutput g)
         (add32 (sg_ticks g) 1) (sg_maxTicks g).

Definition mask32 (axis : N) : N := w32 (N.shiftl 1 (2 * axis)).

(** stepsignals.cpp:13-24; note the guard [axis <= nmbrAxis]. [x & ~mask] is [N.ldiff]. *)
Definition sg_stepBackward (g : sigs) (axis : N) : sigs :=
  if axis <=? nmbrAxis then
    let m := mask32 axis in
    let d1 := N.ldiff (sg_dirSetup g) m in
    let r1 := N.lor (sg_stepRise g) m in
    let f1 := N.ldiff (sg_stepFall g) m in
    let m2 := w32 (N.shiftl m 1) in
    mkSigs (N.lor d1 m2) (N.lor r1 m2) (N.lor f1 m2) (sg_lastOutput g) (sg_ticks g) (sg_maxTicks g)
  else g.

(** stepsignals.cpp:26-37 *)
Definition sg_stepForward (g : sigs) (axis : N) : sigs :=
  if axis <=? nmbrAxis then
    let m := mask32 axis in
    let d1 := N.ldiff (sg_dirSetup g) m in
    let r1 := N.lor (sg_stepRise g) m in
    let f1 := N.ldiff (sg_stepFall g) m in
    let m2 := w32 (N.shiftl m 1) in
    mkSigs (N.ldiff d1 m2) (N.ldiff r1 m2) (N.ldiff f1 m2) (sg_lastOutput g) (sg_ticks g) (sg_maxTicks g)
  else g.

(** stepsignals.cpp:39-44 *)
Definition sg_output (g : sigs) : sigs * step :=
  (mkSigs (sg_dirSetup g) (sg_stepRise g) (sg_stepFall g) (sg_dirSetup g) 0 (sg_maxTicks g),
   mkStep (sg_ticks g) (sg_dirSetup g)).

(** stepsignals.cpp:46-48 *)
Definition sg_setMaxTicks (g : sigs) (m : N) : sigs :=
  mkSigs (sg_dirSetup g) (sg_stepRise g) (sg_stepFall g) (sg_lastOutput g) (sg_ticks g) m.

(** stepsignals.cpp:50-52 *)
Definition sg_isTimedOut (g : sigs) : bool := sg_maxTicks g <=? sg_ticks g.

(** Direction of a step command. *)
Inductive dir := Fwd | Bwd.

Definition sg_cmd (g : sigs) (axis : N) (c : option dir) : sigs :=
  match c with
  | None => g
  | Some Fwd => sg_stepForward g axis
  | Some Bwd => sg_stepBackward g axis
  end.

(** Commands of one tick, one entry per axis 0,1,2,..., applied in axis order
    as in motionctrl.cpp:215-229 (move). *)
Fixpoint sg_cmds (g : sigs) (axis : N) (cs : list (option dir)) : sigs :=
  match cs with
  | [] => g
  | c :: r => sg_cmds (sg_cmd g axis c) (axis + 1) r
  end.

(** One tick of the loop in motionctrl.cpp:179-212: advance, commands, poll. *)
Definition sg_tick (g : sigs) (cs : list (option dir)) : sigs * option step :=
  let g1 := sg_cmds (sg_next g) 0 cs in
  if sg_isModified g1 || sg_isTimedOut g1
  then let '(g2, s) := sg_output g1 in (g2, Some s)
  else (g1, None).

(** Ticks with their pin levels (dirSetup) and the emitted records. *)
Fixpoint sg_run (g : sigs) (css : list (list (option dir))) : sigs * list N * list step :=
  match css with
  | [] => (g, [], [])
  | cs :: r =>
      let '(g1, o) := sg_tick g cs in
      let '(g2, pins, recs) := sg_run g1 r in
      (g2, sg_dirSetup g1 :: pins, match o with Some s => s :: recs | None => recs end)
  end.

(** Full public interface of the step buffer, for the ring discipline. *)
Inductive sbq_op := QWrite (s : step) | QRead | QLevel | QError.
Inductive sbq_out := QoUnit | QoSignals (s : N) | QoLevel (n : N) | QoError (e : event).

Definition sbq_step (b : stepbuf) (o : sbq_op) : stepbuf * sbq_out :=
  match o with
  | QWrite s => (sb_write b s, QoUnit)
  | QRead => let '(b', s) := sb_read b in (b', QoSignals (signals s))
  | QLevel => (b, QoLevel (sb_level b))      (* stepbuffer.cpp:62-64 *)
  | QError => let '(b', e) := sb_getLastError b in (b', QoError e)
  end.

Fixpoint sbq_run (b : stepbuf) (ops : list sbq_op) : stepbuf * list sbq_out :=
  match ops with
  | [] => (b, [])
  | o :: r => let '(b1, x) := sbq_step b o in let '(b2, xs) := sbq_run b1 r in (b2, x :: xs)
  end.
