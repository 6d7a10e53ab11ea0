(** Model of src/cnc3axis/main.cpp: the objects of the program, setup() and
    loop(), as atomic operations that can be interleaved with the timer
    interrupt.  Serial output, GPIO and timer set-up are not modelled. *)
Require Import List Arith NArith ZArith Bool.
From Verif Require Import Base EventModel InputModel StepModel Num MotionModel CtrlModel HomingModel.
Import ListNotations.
Open Scope N_scope.

(** The global objects.  The events the motion controller and homing push are
    collected in [c_events] during a call and moved into the event buffer at its
    end ([drain]); nothing else touches the buffer in between. *)
Record sys (F : Type) := mkSys {
  y_c : ctrl F; y_sb : stepbuf; y_in : list dbin; y_ev : evbuf; y_h : homing }.
Arguments mkSys {F}. Arguments y_c {F}. Arguments y_sb {F}. Arguments y_in {F}. Arguments y_ev {F}. Arguments y_h {F}.

(** The operations of loop().  The loop itself is
    (YFill)* ; [YSample] ; [YEvent], with YTimer at any point. *)
Inductive sys_op :=
| YFill                      (* 164-169: one pass of the fill loop *)
| YTimer                     (* 98-103: pit1_isr *)
| YSample (raw : list bool)  (* 171-179: the sampling timer has expired; sampled levels *)
| YEvent.                    (* 181-185 *)

Section System.
Context {D F : Type} (A : arith D F) (M : machine F) (H : hcfg D F).

Definition drain (y : sys F) : sys F :=
  let c := y_c y in
  mkSys (mkC (c_state c) (c_fo c) (c_st c) (c_items c) (c_head c) (c_level c) (c_levelMax c) (c_sig c) (c_pos c) [])
        (y_sb y) (y_in y) (fold_left eb_push (c_events c) (y_ev y)) (y_h y).

(** myInputs[i].isClosed(): reading outside the array is undefined *)
Definition in_range (y : sys F) (h : homing) : bool := h_switch h <? N.of_nat (length (y_in y)).
Definition reading (y : sys F) (i : N) : bool := db_isClosed (rget (db_make ev_none ev_none) (y_in y) i).

(** 173-178 *)
Fixpoint sample_inputs (l : list dbin) (raw : list bool) (b : evbuf) : list dbin * evbuf :=
  match l with
  | [] => ([], b)
  | d :: r =>
      let '(d1, e) := db_getEvent d (hd false raw) in
      let b1 := if event_eqb ev_none e then b else eb_push b e in
      let '(r1, b2) := sample_inputs r (tl raw) b1 in (d1 :: r1, b2)
  end.

Definition y_step (y : sys F) (o : sys_op) : res (sys F) :=
  match o with
  | YFill =>
      if sb_needsFilling (y_sb y) then
        r <- c_calc A M (N.to_nat (N.max 1 (sg_maxTicks (c_sig (y_c y))))) (y_c y) ;;
        match r with
        | Some (c, s) => Ok (drain (mkSys c (sb_write (y_sb y) s) (y_in y) (y_ev y) (y_h y)))
        | None => UB
        end
      else Ok y
  | YTimer => Ok (mkSys (y_c y) (fst (sb_read (y_sb y))) (y_in y) (y_ev y) (y_h y))
  | YSample raw =>
      let '(l, b) := sample_inputs (y_in y) raw (y_ev y) in
      Ok (mkSys (y_c y) (y_sb y) l b (y_h y))
  | YEvent =>
      if eb_hasEvents (y_ev y) then
        let '(b, e) := eb_pop (y_ev y) in
        let '(h, acts) := h_handle A H (reading y) e (y_h y) in
        if in_range y h
        then Ok (drain (mkSys (do_actions A M (y_c y) acts) (y_sb y) (y_in y) b h))
        else UB
      else Ok y
  end.
Fixpoint y_run (y : sys F) (ops : list sys_op) : res (sys F) :=
  match ops with [] => Ok y | o :: r => y1 <- y_step y o ;; y_run y1 r end.

(** 134-161 setup() after construction of the globals (main.cpp:37-79 and
    machineproperties.h:19-27: step buffer minimum 1500 ticks and 4 entries,
    timeout 375 ticks, tick width [width]); [raw] = the levels sampled first. *)
Fixpoint init_inputs (l : list dbin) (raw : list bool) : list dbin :=
  match l with [] => [] | d :: r => db_initialize d (hd false raw) :: init_inputs r (tl raw) end.
Definition y_setup (width : F) (sb : stepbuf) (raw : list bool) : res (sys F) :=
  let c := c_resetPosition (c_init A 375 width) in
  let y := mkSys c sb (init_inputs myInputs raw) (eb_initialize eb_zero) h_init in
  let '(h, acts) := h_start A H (c_isRunning c) (reading y) (y_h y) in
  if in_range y h
  then Ok (drain (mkSys (do_actions A M c acts) sb (y_in y) (y_ev y) h))
  else UB.
End System.
