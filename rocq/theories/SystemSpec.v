(** Notions used to state properties of the whole program. *)
Require String.
Require Import List Arith NArith ZArith Bool.
From Verif Require Import Base EventModel EventSpec InputModel StepModel Num MotionModel CtrlModel CtrlSpec HomingModel HomingSpec SystemModel.
Import ListNotations.
Open Scope N_scope.

(** The step buffer as constructed (main.cpp:51). *)
Definition fresh_steps : option stepbuf := sb_construct 10 1500 4.

Section Spec.
Context {D F : Type} (A : arith D F) (M : machine F) (H : hcfg D F).

(** States reached by setup() with some input levels, followed by any
    interleaving of the operations of loop() and timer interrupts. *)
Definition reachable (width : F) (y : sys F) : Prop :=
  exists sb raw y0 ops, fresh_steps = Some sb /\
    y_setup A M H width sb raw = Ok y0 /\ y_run A M H y0 ops = Ok y.

(** The arithmetic is free of NaN for the motions of homing: 0/|offset| is a zero
    for each of them. *)
Definition clean_call (x : haction D) : Prop :=
  match x with
  | DoMove a off _ => neqb (aF A) (d2f A (ndiv (aD A) (nofZ (aD A) 0) (nabs (aD A) off))) (nofZ (aF A) 0) = true
  | _ => True
  end.
Definition tidy : Prop :=
  neqb (aF A) (nofZ (aF A) 0) (nofZ (aF A) 0) = true /\
  forall a, (a < 3)%nat -> Forall clean_call (seek A H a ++ release A H a ++ clear A H a).
End Spec.

(** The input can report event [e]. *)
Definition reports (e : event) (d : dbin) : Prop := db_onOpen d = e \/ db_onClose d = e.
(** Every input that could report [e] is (debounced) in its open position and
    keeps being sampled there. *)
Definition holds_open {F} (e : event) (y : sys F) : Prop :=
  forall j d, nth_error (y_in y) j = Some d -> reports e d -> db_current d = true /\ db_previous d = true.
Definition sampled_open (e : event) (ops : list sys_op) : Prop :=
  forall raw j d, In (YSample raw) ops -> nth_error myInputs j = Some d -> reports e d -> nth j raw false = true.
(** [e] is not waiting in the event buffer. *)
Definition not_pending {F} (e : event) (y : sys F) : Prop :=
  ~ In e (contents ev_none (eb_arr (y_ev y)) eb_length (eb_head (y_ev y)) (eb_level (y_ev y))).

(** Positions differ in at most one axis. *)
Definition one_axis (p q : list Z) : Prop :=
  exists a, forall i, i <> a -> nth i p 0%Z = nth i q 0%Z.

(** A short axis: like cnc3axis with a travel of 1/64 mm per axis, so that the
    searching motion ends quickly (used in counterexamples). *)
Definition short_travel {D F} (A : arith D F) : hcfg D F :=
  let H := cnc3axis_homing A in let s := ndec (aF A) 15625 6 in
  mkH (hc_seq H) (hc_dir H) (hc_hasMax H) (hc_maxIdx H) (hc_hasMin H) (hc_minIdx H)
      [s; s; s] (hc_vHoming H) (hc_vSlow H) (hc_offset H).

(** Two values have the same name only if they are equal. *)
Definition distinct_names {T} (name : T -> String.string) : Prop := forall a b, name a = name b -> a = b.
