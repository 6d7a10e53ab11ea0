(** Independent specification of homing. *)
Require Import List Arith NArith ZArith Bool.
From Verif Require Import Base EventModel InputModel Num MotionModel HomingModel.
Import ListNotations.
Open Scope nat_scope.

(** The events of the limit switches, by axis; [up] = the switch at the
    positive end. *)
Definition limit_closed (up : bool) (a : nat) : event :=
  nth a (if up then [limitSwitchXMaxClosed; limitSwitchYMaxClosed; limitSwitchZMaxClosed]
         else [limitSwitchXMinClosed; limitSwitchYMinClosed; limitSwitchZMinClosed]) ev_none.
Definition limit_opened (up : bool) (a : nat) : event :=
  nth a (if up then [limitSwitchXMaxOpened; limitSwitchYMaxOpened; limitSwitchZMaxOpened]
         else [limitSwitchXMinOpened; limitSwitchYMinOpened; limitSwitchZMinOpened]) ev_none.

Section Spec.
Context {D F : Type} (A : arith D F) (H : hcfg D F).

(** Homing direction of an axis (true = positive), and the input its switch is
    connected to according to the configuration. *)
Definition up (a : nat) : bool := nth a (hc_dir H) false.
Definition switch_input (a : nat) : N :=
  if up a then nth a (hc_maxIdx H) 0%N else nth a (hc_minIdx H) 0%N.
(** An entry of the homing sequence can be homed if it is an axis with a limit
    switch at the end it homes to. *)
Definition homeable (a : nat) : bool :=
  (a <? 3) && (if up a then nth a (hc_hasMax H) false else nth a (hc_hasMin H) false).
(** The axes homing has to visit, in order. *)
Definition route : list nat := filter homeable (hc_seq H).

(** The three motions: towards the switch over the full travel at homing speed,
    back at slow speed, away from the switch by the offset at homing speed.
    "Minus" is the product with -1, as float resp. double. *)
Definition travel (a : nat) : F := nth a (hc_sMax H) (nofZ (aF A) 0).
Definition clearance (a : nat) : D := nth a (hc_offset H) (nofZ (aD A) 0).
Definition minusF (x : F) : F := nmul (aF A) (nofZ (aF A) (-1)) x.
Definition minusD (x : D) : D := nmul (aD A) (nofZ (aD A) (-1)) x.
Definition seek (a : nat) : list (haction D) :=
  [DoMove a (f2d A (if up a then travel a else minusF (travel a))) (f2d A (hc_vHoming H))].
Definition release (a : nat) : list (haction D) :=
  [DoMove a (f2d A (if up a then minusF (travel a) else travel a)) (f2d A (hc_vSlow H))].
Definition clear (a : nat) : list (haction D) :=
  [DoMove a (if up a then minusD (clearance a) else clearance a) (f2d A (hc_vHoming H))].

(** *** A protocol: wait for an event, then (looking at the switches) do
    something and continue. *)
Inductive protocol :=
| Finished
| Await (e : event) (next : (N -> bool) -> list (haction D) * protocol).

(** Homing the axes of a list, one after the other. *)
Fixpoint home (l : list nat) : (N -> bool) -> list (haction D) * protocol :=
  match l with
  | [] => fun _ => ([DoPush homingCompleted], Finished)
  | a :: r => fun closed =>
      let back :=
        (release a, Await (limit_opened (up a) a) (fun _ =>
        ([DoStop],  Await motionStopped (fun _ =>
        (clear a,   Await motionStopped (home r)))))) in
      if closed (switch_input a) then back
      else
        (seek a,   Await (limit_closed (up a) a) (fun _ =>
        ([DoStop], Await motionStopped (fun _ => back))))
  end.

(** start(), depending on whether a motion is in progress. *)
Definition begin_homing (running : bool) (closed : N -> bool) : list (haction D) * protocol :=
  match route with
  | [] => ([DoPush homingError], Finished)
  | l => let '(acts, p) := if running then ([DoStop], Await motionStopped (home l)) else home l closed in
         (DoPush homingStarted :: acts, p)
  end.

(** Executing a protocol on a history of events: any event but the awaited one
    is ignored. *)
Fixpoint perform (p : protocol) (ins : list (event * (N -> bool))) : list (list (haction D)) :=
  match ins with
  | [] => []
  | (e, closed) :: r =>
      match p with
      | Finished => [] :: perform p r
      | Await w next =>
          if event_eq_dec e w then let '(acts, q) := next closed in acts :: perform q r
          else [] :: perform p r
      end
  end.

(** *** The same, as the complete sequence of calls when the switch of the i-th
    axis is found closed ([true]) or open. *)
Definition phases (a : nat) (found_closed : bool) : list (haction D) :=
  (if found_closed then [] else seek a ++ [DoStop]) ++ release a ++ [DoStop] ++ clear a.
Definition all_calls (l : list (nat * bool)) : list (haction D) :=
  concat (map (fun x => phases (fst x) (snd x)) l) ++ [DoPush homingCompleted].
Definition prefix {T} (l m : list T) : Prop := exists r, m = l ++ r.

(** Infinite histories of events in which every event occurs again and again. *)
Definition fair (s : nat -> event * (N -> bool)) : Prop :=
  forall e k, exists j, k <= j /\ fst (s j) = e.

(** The debounced input at a configured index is the limit switch of axis [a] at
    the positive ([max]) or negative end: it raises that switch's events. *)
Definition configured_input (max : bool) (a : nat) : N :=
  if max then nth a (hc_maxIdx H) 0%N else nth a (hc_minIdx H) 0%N.
Definition wired (inputs : list dbin) (max : bool) (a : nat) : Prop :=
  exists d, nth_error inputs (N.to_nat (configured_input max a)) = Some d /\
    db_onOpen d = limit_closed max a /\ db_onClose d = limit_opened max a.
(** Every entry of the travel of axis [a] as a vector. *)
Definition along (a : nat) (x : D) : list D :=
  map (fun i => if i =? a then x else nofZ (aD A) 0) [0; 1; 2].
End Spec.
Arguments Finished {D}. Arguments Await {D}.
