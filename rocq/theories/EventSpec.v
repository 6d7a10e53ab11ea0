(** Independent specification of the event queue: a plain list of pending
    events, the error since the last poll, the high-water mark since the last
    poll.  No array, index or modulo. *)
Require Import List Arith NArith Bool.
From Verif Require Import EventModel.
Import ListNotations.
Open Scope N_scope.

Record qspec := mkQ { q_pending : list event; q_error : event; q_high : N }.

Definition q_empty : qspec := mkQ [] ev_none 0.

Definition q_step (q : qspec) (o : eb_op) : qspec * eb_out :=
  match o with
  | EbInit => (q_empty, OutUnit)
  | EbPush ev_none => (q, OutUnit)
  | EbPush e =>
      if (length (q_pending q) <? 16)%nat
      then (mkQ (q_pending q ++ [e]) (q_error q)
                (N.max (q_high q) (N.of_nat (S (length (q_pending q))))), OutUnit)
      else (mkQ (q_pending q) eventBufferOverflow (q_high q), OutUnit)
  | EbPop =>
      match q_pending q with
      | [] => (mkQ [] eventBufferUnderflow (q_high q), OutEvent ev_none)
      | e :: r => (mkQ r (q_error q) (q_high q), OutEvent e)
      end
  | EbHas => (q, OutBool (negb (match q_pending q with [] => true | _ => false end)))
  | EbLevelMax => (mkQ (q_pending q) (q_error q) 0, OutNum (q_high q))
  | EbLastError => (mkQ (q_pending q) ev_none (q_high q), OutEvent (q_error q))
  end.

Fixpoint q_run (q : qspec) (ops : list eb_op) : qspec * list eb_out :=
  match ops with
  | [] => (q, [])
  | o :: r => let '(q1, x) := q_step q o in
              let '(q2, xs) := q_run q1 r in (q2, x :: xs)
  end.

(** Events accepted / delivered by a history: used to state FIFO delivery
    without mentioning any intermediate queue state.  [pend] is the number of
    pending events before the history. *)
Fixpoint accepted (pend : nat) (ops : list eb_op) : list event :=
  match ops with
  | [] => []
  | EbPush ev_none :: r => accepted pend r
  | EbPush e :: r => if (pend <? 16)%nat then e :: accepted (S pend) r else accepted pend r
  | EbPop :: r => accepted (pred pend) r
  | _ :: r => accepted pend r
  end.

Fixpoint delivered (outs : list eb_out) (ops : list eb_op) : list event :=
  match ops, outs with
  | EbPop :: r, OutEvent e :: xs =>
      (if event_eqb e ev_none then [] else [e]) ++ delivered xs r
  | _ :: r, _ :: xs => delivered xs r
  | _, _ => []
  end.

(** Histories without re-initialisation. *)
Definition no_init (ops : list eb_op) : Prop := ~ In EbInit ops.
