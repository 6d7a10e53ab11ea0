(** Model of lib/inputs/debouncedinput.{h,cpp}, lib_target/cnc3axis/inputs/
    switches.{h,cpp} and the input table of src/cnc3axis/main.cpp. *)
Require Import List Arith NArith Bool.
From Verif Require Import Base EventModel.
Import ListNotations.
Open Scope N_scope.

(** lib/inputs/debouncedinput.h:18 *)
Definition debounceMaxCount : N := 4.

(** lib/inputs/debouncedinput.h:19-25: constant events and mutable members. *)
Record dbin := mkDb {
  db_onOpen : event;
  db_onClose : event;
  db_counter : N;
  db_current : bool;
  db_previous : bool }.

(** debouncedinput.cpp:10 constructor with the in-class initialisers. *)
Definition db_make (onOpen onClose : event) : dbin := mkDb onOpen onClose 0 false false.

(** debouncedinput.cpp:13-23 *)
Definition db_initialize (d : dbin) (raw : bool) : dbin :=
  if raw then mkDb (db_onOpen d) (db_onClose d) debounceMaxCount true true
  else mkDb (db_onOpen d) (db_onClose d) 0 false false.

(** debouncedinput.cpp:25-35 *)
Definition db_getState (d : dbin) : bool := db_current d.
Definition db_isClosed (d : dbin) : bool := Bool.eqb false (db_current d).
Definition db_isOpen (d : dbin) : bool := Bool.eqb true (db_current d).

(** debouncedinput.cpp:37-60 *)
Definition db_getEvent (d : dbin) (raw : bool) : dbin * event :=
  if raw then
    if db_counter d <? debounceMaxCount then
      (mkDb (db_onOpen d) (db_onClose d) (add32 (db_counter d) 1) (db_current d) (db_previous d), ev_none)
    else if negb (db_previous d) then
      (mkDb (db_onOpen d) (db_onClose d) (db_counter d) true true, db_onClose d)
    else
      (mkDb (db_onOpen d) (db_onClose d) (db_counter d) true (db_previous d), ev_none)
  else
    if 0 <? db_counter d then
      (mkDb (db_onOpen d) (db_onClose d) (sub32 (db_counter d) 1) (db_current d) (db_previous d), ev_none)
    else if db_previous d then
      (mkDb (db_onOpen d) (db_onClose d) (db_counter d) false false, db_onOpen d)
    else
      (mkDb (db_onOpen d) (db_onClose d) (db_counter d) false (db_previous d), ev_none).

(** Feeding a list of raw samples, oldest first; results of every getEvent(). *)
Fixpoint db_run (d : dbin) (samples : list bool) : dbin * list event :=
  match samples with
  | [] => (d, [])
  | x :: r => let '(d1, e) := db_getEvent d x in
              let '(d2, es) := db_run d1 r in (d2, e :: es)
  end.

(** src/cnc3axis/main.cpp:70-79 myInputs[]: constructor arguments (first,
    second) in table order. *)
Definition myInputs : list dbin :=
  [ db_make limitSwitchZMaxClosed limitSwitchZMaxOpened;
    db_make limitSwitchXMaxClosed limitSwitchXMaxOpened;
    db_make limitSwitchYMaxClosed limitSwitchYMaxOpened;
    db_make limitSwitchYMinClosed limitSwitchYMinOpened;
    db_make limitSwitchZMinClosed limitSwitchZMinOpened;
    db_make limitSwitchXMinClosed limitSwitchXMinOpened;
    db_make emergencyStopButtonPressed emergencyStopButtonReleased;
    db_make feedHoldResumeButtonPressed feedHoldResumeButtonReleased;
    db_make probeSwitchClosed probeSwitchOpened ].

(** lib_target/cnc3axis/inputs/switches.h:18 *)
Definition inputs_nmbrInputs : N := 12.

(** lib_target/cnc3axis/inputs/switches.cpp:46-52 sample(), given the values of
    the three 32-bit port input registers; inputMask is 0 (switches.h:26). *)
Definition inputs_sample (gpioD gpioE gpioA : N) : N :=
  let t0 := N.land gpioD 255 in
  let t1 := N.lor t0 (N.shiftr (N.land gpioE 16777216) 15) in
  let t2 := N.lor t1 (N.shiftr (N.land gpioE 33554432) 17) in
  let t3 := N.lor t2 (N.shiftr (N.land gpioA 196608) 6) in
  N.lxor t3 0.

(** switches.cpp:38-44 get(index) *)
Definition inputs_get (theInputs index : N) : bool :=
  if inputs_nmbrInputs <=? index then false
  else negb (N.land theInputs (N.shiftl 1 index) =? 0).
