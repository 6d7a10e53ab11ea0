(** What is asked of the main loop and of the records so that the pins follow in
    real time. *)
Require Import List Arith NArith Bool.
From Verif Require Import Base EventModel StepModel StepSpec FlowModel.
Import ListNotations.
Open Scope N_scope.

Definition ticks_in (ops : list flow_op) : nat :=
  length (filter (fun o => match o with Tick => true | Pass => false end) ops).

(** The main loop never lets more than [k] ticks pass without having the buffer
    filled ([since]: ticks since it was last found filled). *)
Fixpoint prompt (src : nat -> step) (k since : N) (f : flow) (ops : list flow_op) : Prop :=
  match ops with
  | [] => True
  | o :: r =>
      let f1 := flow_step src f o in
      let s1 := match o with Tick => since + 1 | Pass => since end in
      s1 <= k /\ prompt src k (if sb_needsFilling (fl_b f1) then s1 else 0) f1 r
  end.

(** The first [n] records. *)
Definition first (src : nat -> step) (n : nat) : list step := map src (seq 0 n).

(** Records last between 1 and 375 ticks, and no 254 consecutive ones take less
    than 750 ticks. *)
Definition bounded (src : nat -> step) : Prop := forall n, 1 <= timeBefore (src n) <= 375.
Definition sparse (src : nat -> step) : Prop := forall n, 750 <= sum_times (map src (seq n 254)).

(** Given step commands per tick: no 750 consecutive ticks (12.5 ms) contain more
    than 83 ticks at which some axis is commanded to step. *)
Definition busy (cs : list (option dir)) : bool := existsb is_cmd cs.
Definition few (css : list (list (option dir))) : Prop :=
  forall i, (length (filter busy (firstn 750 (skipn i css))) <= 83)%nat.

(** A finite list of records as a stream: afterwards the pins stay as they are. *)
Definition stream (recs : list step) (n : nat) : step :=
  nth n recs (mkStep 375 (last (map signals recs) 0)).
