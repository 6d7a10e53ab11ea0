(** Independent specification: byte lists. *)
Require Import List Arith NArith Bool.
From Verif Require Import Base HostModel.
Import ListNotations.
Open Scope N_scope.

(** Split after the first newline. *)
Fixpoint first_line (l : list N) : option (list N * list N) :=
  match l with
  | [] => None
  | b :: r => if b =? LF then Some ([b], r)
              else match first_line r with Some (m, rest) => Some (b :: m, rest) | None => None end
  end.

(** Abstract host interface: pending received bytes, queued bytes to send. *)
Record hspec := mkHS { hs_rx : list N; hs_tx : list N }.

Definition hs_step (s : hspec) (o : host_op) : hspec * host_out :=
  match o with
  | HRx b => (if (length (hs_rx s) <? 256)%nat then mkHS (hs_rx s ++ [b]) (hs_tx s) else s, HNone)
  | HPoll => match first_line (hs_rx s) with
             | Some (m, rest) => (mkHS rest (hs_tx s), HMsg (m ++ [0]))
             | None => (s, HNone)
             end
  | HSend m => (if (length (hs_tx s) + length (cstr m) <=? 256)%nat
                then mkHS (hs_rx s) (hs_tx s ++ cstr m) else s, HNone)
  | HTx => match hs_tx s with
           | [] => (s, HNone)
           | b :: r => (mkHS (hs_rx s) r, HByte b)
           end
  end.

Fixpoint hs_run (s : hspec) (ops : list host_op) : hspec * list host_out :=
  match ops with
  | [] => (s, [])
  | o :: r => let '(s1, x) := hs_step s o in
              let '(s2, xs) := hs_run s1 r in (s2, x :: xs)
  end.

(** Observables of a run. *)
Definition msgs (xs : list host_out) : list (list N) :=
  flat_map (fun x => match x with HMsg m => [m] | _ => [] end) xs.
Definition wire (xs : list host_out) : list N :=
  flat_map (fun x => match x with HByte b => [b] | _ => [] end) xs.
Definition received (ops : list host_op) : list N :=
  flat_map (fun o => match o with HRx b => [b] | _ => [] end) ops.

(** A message as stored by getMessage is a line (its only newline last)
    followed by the terminator. *)
Definition is_line (m : list N) : Prop :=
  exists t, m = t ++ [LF; 0] /\ ~ In LF t.

(** Strip the terminator. *)
Definition body (m : list N) : list N := removelast m.

(** No byte arrives while 256 bytes are pending. *)
Fixpoint never_full (s : hspec) (ops : list host_op) : Prop :=
  match ops with
  | [] => True
  | o :: r => (match o with HRx _ => (length (hs_rx s) < 256)%nat | _ => True end)
              /\ never_full (fst (hs_step s o)) r
  end.

(** Bytes of the messages that fit into the free space ([q] bytes queued). *)
Fixpoint accepted_tx (q : nat) (ops : list host_op) : list N :=
  match ops with
  | [] => []
  | HSend m :: r => if (q + length (cstr m) <=? 256)%nat
                    then cstr m ++ accepted_tx (q + length (cstr m)) r else accepted_tx q r
  | HTx :: r => accepted_tx (pred q) r
  | _ :: r => accepted_tx q r
  end.

(** 256 bytes without a newline. *)
Definition flood : list host_op := repeat (HRx 65) 256.

(** getMessage about to start with the given pending bytes. *)
Definition g_start (pending : list N) (lines : N) : gstate :=
  mkG (pending ++ repeat 0 (256 - length pending)) 0 (N.of_nat (length pending)) lines G19 0 [].

(** A byte arrives between the update of head and of level. *)
Definition race_schedule : list gact :=
  [GMain; GMain; GMain; GIrq 66] ++ repeat GMain 20.

(** The bytes that arrive during a schedule. *)
Definition g_arrivals (l : list gact) : list N :=
  flat_map (fun a => match a with GIrq b => [b] | GMain => [] end) l.

(** The main program is between the first and the last step of an update that it
    shares with the receive interrupt: the move of the head and the count of bytes
    (G22), or the count of lines (G27). *)
Definition g_critical (p : gpc) : Prop :=
  match p with G22load | G22store _ | G27store _ => True | _ => False end.
(** A schedule in which no interrupt comes at such a point, as when interrupts are
    switched off there. *)
Fixpoint g_masked (g : gstate) (l : list gact) : Prop :=
  match l with
  | [] => True
  | a :: r => (match a with GIrq _ => ~ g_critical (g_pc g) | GMain => True end)
              /\ g_masked (g_step g a) r
  end.

(** sendMessage about to start, with bytes waiting in the ring from position [head]. *)
Definition t_waiting (t : tstate) : list N := contents 0 (t_arr t) 256 (t_head t) (t_level t).
Definition g_waiting (g : gstate) : list N := contents 0 (g_arr g) 256 (g_head g) (g_level g).

(** The same for the transmitter: between reading the head and reading the level, and
    between reading and writing the level. *)
Definition t_critical (p : tpc) : Prop :=
  match p with T48level _ | T49store _ => True | _ => False end.
Fixpoint t_masked (t : tstate) (l : list tact) : Prop :=
  match l with
  | [] => True
  | a :: r => (match a with TIrq => ~ t_critical (t_pc t) | TMain => True end)
              /\ t_masked (t_step t a) r
  end.
Definition t_start (pending message : list N) : tstate :=
  mkT (pending ++ repeat 0 (256 - length pending)) 0 (N.of_nat (length pending)) true T44 message [].

(** 'A' is waiting and "B" is queued; 'A' goes out between the load and the store of
    the level. *)
Definition tx_repeat_schedule : list tact :=
  repeat TMain 5 ++ [TIrq] ++ repeat TMain 4 ++ repeat TIrq 5.
(** "AC" is waiting and "B" is queued; 'A' goes out between the load of the head and
    the load of the level. *)
Definition tx_lose_schedule : list tact :=
  repeat TMain 2 ++ [TIrq] ++ repeat TMain 7 ++ repeat TIrq 5.

(** Steps of the main program in a schedule. *)
Fixpoint g_mains (l : list gact) : nat :=
  match l with [] => 0 | GMain :: r => S (g_mains r) | GIrq _ :: r => g_mains r end.
Fixpoint t_mains (l : list tact) : nat :=
  match l with [] => 0 | TMain :: r => S (t_mains r) | TIrq :: r => t_mains r end.
