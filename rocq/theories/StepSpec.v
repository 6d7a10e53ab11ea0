(** Independent specification of step timing and pulse waveforms. *)
Require Import List Arith NArith Bool.
From Verif Require Import Base EventModel StepModel.
Import ListNotations.
Open Scope N_scope.

(** *** Hardware timer (stepbuffer.md; timers.cpp:25 "reload value of X-1
    results in an X cycle period").  When interrupt k occurs the timer restarts
    with the value its reload register has at that moment, i.e. the one written
    during interrupt k-1 ([ldval] before the first interrupt).  The interrupt
    routine writes timeBefore-1 (32-bit).  [gaps ldval rs] lists the times from
    output 0 to 1, 1 to 2, ... when the interrupts read [rs]. *)
Fixpoint gaps (ldval : N) (rs : list step) : list N :=
  match rs with
  | [] => []
  | s :: r => (ldval + 1) :: gaps (sub32 (timeBefore s) 1) r
  end.

(** Sum of times. *)
Definition sum_times (l : list step) : N := fold_right (fun s n => timeBefore s + n) 0 l.

(** *** Pulses.  Commands of axis [a] per tick. *)
Definition cmd_at (a : nat) (css : list (list (option dir))) : list (option dir) :=
  map (fun cs => nth a cs None) css.

Definition is_cmd (c : option dir) : bool := match c with Some _ => true | None => false end.

(** Direction level after each tick: that of the most recent command. *)
Fixpoint dir_wave (cur : bool) (l : list (option dir)) : list bool :=
  match l with
  | [] => []
  | Some Fwd :: r => false :: dir_wave false r
  | Some Bwd :: r => true :: dir_wave true r
  | None :: r => cur :: dir_wave cur r
  end.

(** Step level: high exactly one tick after a command (and only if no new
    command starts at that very tick). *)
Fixpoint step_wave (prev : bool) (l : list (option dir)) : list bool :=
  match l with
  | [] => []
  | c :: r => (prev && negb (is_cmd c)) :: step_wave (is_cmd c) r
  end.

(** No two commands on consecutive ticks. *)
Fixpoint spaced (l : list (option dir)) : Prop :=
  match l with
  | c :: ((c' :: _) as r) => ~ (is_cmd c = true /\ is_cmd c' = true) /\ spaced r
  | _ => True
  end.

(** What a stepper driver sees: on each rising edge of the step pin it moves
    one step in the direction given by the direction pin.  [pulses a prev pins]
    lists the directions of the rising edges of axis [a]. *)
Definition step_pin (a : N) (p : N) : bool := N.testbit p (2 * a).
Definition dir_pin (a : N) (p : N) : bool := N.testbit p (2 * a + 1).

Fixpoint pulses (a : N) (prev : bool) (pins : list N) : list dir :=
  match pins with
  | [] => []
  | p :: r => (if negb prev && step_pin a p then [if dir_pin a p then Bwd else Fwd] else [])
              ++ pulses a (step_pin a p) r
  end.

(** The commands as a list of directions. *)
Definition commanded (l : list (option dir)) : list dir :=
  flat_map (fun c => match c with Some d => [d] | None => [] end) l.

(** Replaying records: hold the previous pins for timeBefore-1 ticks, then the
    new pins. *)
Fixpoint replay (prev : N) (recs : list step) : list N :=
  match recs with
  | [] => []
  | s :: r => repeat prev (N.to_nat (timeBefore s) - 1) ++ [signals s] ++ replay (signals s) r
  end.

(** *** Ring discipline of the step buffer: a bounded queue of signals that
    rejects writes beyond 256 entries and answers 1000 when empty, and the
    most recent error since it was last asked for. *)
Record sqspec := mkSq { sq_pending : list N; sq_error : event }.

Definition sq_step (q : sqspec) (o : sbq_op) : sqspec * sbq_out :=
  match o with
  | QWrite s => if (length (sq_pending q) <? 256)%nat
                then (mkSq (sq_pending q ++ [signals s]) (sq_error q), QoUnit)
                else (mkSq (sq_pending q) stepBufferOverflow, QoUnit)
  | QRead => match sq_pending q with
             | [] => (mkSq [] stepBufferUnderflow, QoSignals 1000)
             | s :: r => (mkSq r (sq_error q), QoSignals s)
             end
  | QLevel => (q, QoLevel (N.of_nat (length (sq_pending q))))
  | QError => (mkSq (sq_pending q) ev_none, QoError (sq_error q))
  end.

Fixpoint sq_run (q : sqspec) (ops : list sbq_op) : sqspec * list sbq_out :=
  match ops with
  | [] => (q, [])
  | o :: r => let '(q1, x) := sq_step q o in let '(q2, xs) := sq_run q1 r in (q2, x :: xs)
  end.

(** The commands that are not followed by another command on the next tick. *)
Fixpoint unshadowed (l : list (option dir)) : list dir :=
  match l with
  | [] => []
  | Some d :: r => (match r with Some _ :: _ => [] | _ => [d] end) ++ unshadowed r
  | None :: r => unshadowed r
  end.

(** Default entry for [nth]. *)
Definition dstep : step := mkStep 0 0.

(** Starting with [lvl] buffered entries, every read finds at least three
    entries and no write finds the buffer full. *)
Fixpoint paced (lvl : N) (ops : list sb_op) : Prop :=
  match ops with
  | [] => True
  | SbWrite _ :: r => lvl < 256 /\ paced (lvl + 1) r
  | SbRead :: r => 3 <= lvl /\ paced (lvl - 1) r
  end.

(** The steps written by a history. *)
Definition written (ops : list sb_op) : list step :=
  flat_map (fun o => match o with SbWrite s => [s] | SbRead => [] end) ops.

(** Real time represented by the entries of [W] not yet output after [r] reads. *)
Definition remaining (W : list step) (r : nat) : N := sum_times (skipn r W).

(** The step buffer as constructed in main.cpp (1500 ticks, 4 entries). *)
Definition sb0 : stepbuf :=
  match sb_construct 256 1500 4 with Some b => b | None => mkSb [] [] 0 0 0 0 0 ev_none end.

(** The four idle entries it starts with. *)
Definition W0 : list step := repeat (mkStep 375 0) 4.

(** Witness: the buffer drops to one entry but never runs empty. *)
Definition late_ops : list sb_op := [SbRead; SbRead; SbRead; SbWrite (mkStep 100 3); SbWrite (mkStep 200 2); SbRead; SbRead].

(** Witness: many short entries. *)
Definition overcount_ops : list sb_op := repeat (SbWrite (mkStep 5 1)) 160 ++ repeat SbRead 12.

(** Every timer interrupt of a fill-loop history finds at least three entries. *)
Fixpoint irq_paced (b : stepbuf) (ops : list fill_op) : Prop :=
  match ops with
  | [] => True
  | o :: r => (match o with FIrq => 3 <= sb_level b | _ => True end) /\ irq_paced (fill_step b o) r
  end.

(** Witness: a signal change every second tick. *)
Definition dense_ops : list fill_op :=
  [FIrq] ++ repeat (FIter (mkStep 2 1)) 200 ++ [FIrq] ++ repeat (FIter (mkStep 2 0)) 200.

(** Pin level after every tick / the emitted records, from power-up with
    [setMaxTicksSinceLastOutput m], for the given per-tick commands. *)
Definition pins_of (m : N) (css : list (list (option dir))) : list N :=
  snd (fst (sg_run (sg_setMaxTicks sg_zero m) css)).

Definition recs_of (m : N) (css : list (list (option dir))) : list step :=
  snd (sg_run (sg_setMaxTicks sg_zero m) css).
