(** Independent notions for the debounced input and the port mapping. *)
Require Import List Arith NArith ZArith Bool.
From Verif Require Import EventModel.
Import ListNotations.

(** How many more samples of [level] than of the opposite level. *)
Definition surplus (level : bool) (l : list bool) : Z :=
  (Z.of_nat (count_occ Bool.bool_dec l level) -
   Z.of_nat (count_occ Bool.bool_dec l (negb level)))%Z.

(** Some run of most recent samples of [l] has a surplus of at least five. *)
Definition wins (level : bool) (l : list bool) : Prop :=
  exists old recent, l = old ++ recent /\ (5 <= surplus level recent)%Z.

(** The change events among a list of getEvent results. *)
Definition changes (es : list event) : list event :=
  filter (fun e => negb (event_eqb e ev_none)) es.

(** [alternates a b l]: l = a, b, a, b, ... *)
Fixpoint alternates (a b : event) (l : list event) : Prop :=
  match l with [] => True | x :: r => x = a /\ alternates b a r end.

(** The physical pin behind logical input i: (register, bit). *)
Inductive port := PortA | PortD | PortE.
Definition pin_of (i : N) : port * N :=
  if (i <? 8)%N then (PortD, i)
  else if (i =? 8)%N then (PortE, 25)%N
  else if (i =? 9)%N then (PortE, 24)%N
  else if (i =? 10)%N then (PortA, 16)%N
  else (PortA, 17)%N.

(** The events whose name says that the switch is closed. *)
Definition means_closed (e : event) : bool :=
  match e with
  | limitSwitchXMinClosed | limitSwitchYMinClosed | limitSwitchZMinClosed
  | limitSwitchXMaxClosed | limitSwitchYMaxClosed | limitSwitchZMaxClosed
  | emergencyStopButtonPressed | feedHoldResumeButtonPressed | probeSwitchClosed => true
  | _ => false
  end.
