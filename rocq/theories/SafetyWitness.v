(** Runs in which the inputs do not stop the machine, and a complete homing run. *)
Require Import List Arith NArith ZArith Bool Lia.
From Verif Require Import Base EventModel EventProofs InputModel StepModel StepSpec Num NumSF MotionModel CtrlModel CtrlSpec CtrlProofs
  HomingModel HomingSpec SystemModel SystemSpec HomingWitness SafetySpec.
Import ListNotations.
Open Scope N_scope.

Section W.
Context {D F : Type} (A : arith D F) (M : machine F) (H : hcfg D F).
(** Two moments of one run. *)
Definition probe2 {T} (f g : sys F -> T) (width : F) (raw : list bool) (ops1 ops2 : list sys_op) : option (T * T) :=
  match fresh_steps with
  | Some sb => match y_setup A M H width sb raw with
               | Ok y0 => match y_run A M H y0 ops1 with
                          | Ok y => match y_run A M H y ops2 with Ok y' => Some (f y, g y') | UB => None end
                          | UB => None end
               | UB => None
               end
  | None => None
  end.
Lemma probe2_lemma {T} (f g : sys F -> T) width raw ops1 ops2 t : probe2 f g width raw ops1 ops2 = Some t ->
  exists y y', reachable A M H width y /\ y_run A M H y ops2 = Ok y' /\ f y = fst t /\ g y' = snd t.
Proof.
  unfold probe2. destruct fresh_steps as [sb|] eqn:E0; [|discriminate].
  destruct (y_setup A M H width sb raw) as [y0|] eqn:E1; [|discriminate].
  destruct (y_run A M H y0 ops1) as [y|] eqn:E2; [|discriminate].
  destruct (y_run A M H y ops2) as [y'|] eqn:E3; [|discriminate]. intro E. injection E as <-.
  exists y, y'. split; [|auto]. exists sb, raw, y0, ops1. auto.
Qed.
End W.

Definition view {F} (i : nat) (y : sys F) :=
  (c_state (y_c y), eb_level (y_ev y), db_isClosed (nth i (y_in y) (db_make ev_none ev_none)), c_pos (y_c y)).
(** All inputs open except [i], sampled five times. *)
Definition press (i : nat) : list sys_op := repeat (YSample (upd (repeat true 9) i false)) 5.
(** The main loop while the button is held. *)
Definition held (i n : nat) : list sys_op := concat (repeat [YTimer; YFill; YSample (upd (repeat true 9) i false); YEvent] n).

(** Emergency stop while searching the Z switch. *)
Lemma estop_run X : let A := sf_arith X in
  probe2 A (cnc3axis A) (cnc3axis_homing A) (view input_emergencyStop) (view input_emergencyStop) (tickWidth A) (repeat true 9)
    (press 6 ++ repeat YEvent 4) (held 6 8) =
  Some ((ms_running, 0, true, [0; 0; 0]%Z), (ms_running, 0, true, [0; 0; 2]%Z)).
Proof. vm_compute. reflexivity. Qed.
(** Z starts on its upper switch and backs off downwards; the lower switch closes. *)
Lemma limit_run X : let A := sf_arith X in
  probe2 A (cnc3axis A) (cnc3axis_homing A) (view input_limitZMin) (view input_limitZMin) (tickWidth A) (upd (repeat true 9) 0 false)
    (repeat (YSample [false; true; true; true; false; true; true; true; true]) 5 ++ repeat YEvent 4)
    (concat (repeat [YTimer; YFill; YSample [false; true; true; true; false; true; true; true; true]; YEvent] 10)) =
  Some ((ms_running, 0, true, [0; 0; 0]%Z), (ms_running, 0, true, [0; 0; -2]%Z)).
Proof. vm_compute. reflexivity. Qed.

(** The Z switch is closed at first and opens. *)
Definition home_ops : list sys_op := rounds 1 ++ repeat (YSample (repeat true 9)) 5 ++ rounds 16 ++ repeat YEvent 4.
Lemma home_run X : let A := sf_arith X in
  probe A (cnc3axis A) (only_z A) (fun y => (h_state (y_h y), view 0 y)) (tickWidth A) (false :: repeat true 8) home_ops =
  Some (hs_found, (ms_stopped, 0, false, [0; 0; -2]%Z)).
Proof. vm_compute. reflexivity. Qed.

(** Statements. *)
Lemma in_cycle o (l : list sys_op) n : In o (concat (repeat l n)) -> In o l.
Proof. induction n as [|n IH]; cbn [repeat concat]; [intros []|]. intro I. apply in_app_or in I as [I|I]; auto. Qed.

Lemma estop_lemma X : let A := sf_arith X in let M := cnc3axis A in let H := cnc3axis_homing A in
  exists y ops y', reachable A M H (tickWidth A) y /\ pressed input_emergencyStop y /\ (forall e, not_pending e y) /\
    kept_closed input_emergencyStop ops /\ y_run A M H y ops = Ok y' /\
    c_state (y_c y) = ms_running /\ c_state (y_c y') = ms_running /\ (forall e, not_pending e y') /\
    c_pos (y_c y) = [0; 0; 0]%Z /\ c_pos (y_c y') = [0; 0; 2]%Z.
Proof.
  intros A M H. destruct (probe2_lemma _ _ _ _ _ _ _ _ _ _ (estop_run X)) as (y & y' & R & E & V1 & V2).
  cbn [fst snd] in V1, V2. injection V1 as S1 L1 P1 Q1. injection V2 as S2 L2 P2 Q2.
  exists y, (held 6 8), y'. split; [exact R|]. split; [exact P1|].
  split; [intros e; unfold not_pending; rewrite L1; intros []|].
  split; [|repeat split; try assumption; intros e; unfold not_pending; rewrite L2; intros []].
  intros raw I. apply in_cycle in I. cbn [In] in I. destruct I as [I|[I|[I|[I|[]]]]]; try discriminate. injection I as <-. reflexivity.
Qed.
Lemma limit_witness X : let A := sf_arith X in let M := cnc3axis A in let H := cnc3axis_homing A in
  exists y ops y', reachable A M H (tickWidth A) y /\ pressed input_limitZMin y /\ (forall e, not_pending e y) /\
    kept_closed input_limitZMin ops /\ y_run A M H y ops = Ok y' /\
    c_state (y_c y) = ms_running /\ c_state (y_c y') = ms_running /\ (forall e, not_pending e y') /\
    c_pos (y_c y) = [0; 0; 0]%Z /\ c_pos (y_c y') = [0; 0; -2]%Z.
Proof.
  intros A M H. destruct (probe2_lemma _ _ _ _ _ _ _ _ _ _ (limit_run X)) as (y & y' & R & E & V1 & V2).
  cbn [fst snd] in V1, V2. injection V1 as S1 L1 P1 Q1. injection V2 as S2 L2 P2 Q2.
  eexists y, _, y'. split; [exact R|]. split; [exact P1|].
  split; [intros e; unfold not_pending; rewrite L1; intros []|].
  split; [|split; [exact E|]; repeat split; try assumption; intros e; unfold not_pending; rewrite L2; intros []].
  intros raw I. apply in_cycle in I. cbn [In] in I. destruct I as [I|[I|[I|[I|[]]]]]; try discriminate. injection I as <-. reflexivity.
Qed.
Lemma home_lemma X : let A := sf_arith X in let M := cnc3axis A in let H := only_z A in
  exists y, reachable A M H (tickWidth A) y /\ h_state (y_h y) = hs_found /\ c_state (y_c y) = ms_stopped /\
    (forall e, not_pending e y) /\ c_pos (y_c y) = [0; 0; -2]%Z.
Proof.
  intros A M H. destruct (probe_lemma _ _ _ _ _ _ _ _ (home_run X)) as (y & R & V).
  injection V as S0 S1 L1 _ Q1. exists y. split; [exact R|]. split; [exact S0|]. split; [exact S1|].
  split; [intros e; unfold not_pending; rewrite L1; intros []|exact Q1].
Qed.
Definition upcoming {F} (y : sys F) := (eb_hasEvents (y_ev y), snd (eb_pop (y_ev y)), h_state (y_h y), c_state (y_c y)).
Lemma pressed_run X : let A := sf_arith X in
  probe A (cnc3axis A) (cnc3axis_homing A) upcoming (tickWidth A) (repeat true 9) ([YEvent; YEvent] ++ press 6) =
  Some (true, emergencyStopButtonPressed, hs_closing, ms_running).
Proof. vm_compute. reflexivity. Qed.
Lemma reached_run X : let A := sf_arith X in
  probe A (cnc3axis A) (cnc3axis_homing A) upcoming (tickWidth A) (repeat true 9) ([YEvent; YEvent] ++ press 0) =
  Some (true, limitSwitchZMaxClosed, hs_closing, ms_running).
Proof. vm_compute. reflexivity. Qed.
Lemma upcoming_lemma X e raw ops : let A := sf_arith X in let M := cnc3axis A in let H := cnc3axis_homing A in
  probe A M H upcoming (tickWidth A) raw ops = Some (true, e, hs_closing, ms_running) ->
  exists y, reachable A M H (tickWidth A) y /\ next_event y e /\ h_state (y_h y) = hs_closing /\ c_state (y_c y) = ms_running.
Proof.
  intros A M H E. destruct (probe_lemma _ _ _ _ _ _ _ _ E) as (y & R & V). injection V as V1 V2 V3 V4.
  exists y. split; [exact R|]. split; [split; assumption|]. split; assumption.
Qed.
