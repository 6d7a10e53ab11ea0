(** Concrete runs about what the controller remembers. *)
Require Import List Arith NArith ZArith Bool Lia ZifyBool ZifyNat ZifyN.
From Verif Require Import Base EventModel StepModel Num MotionModel CtrlModel CtrlSpec NumSF MemorySpec.
Import ListNotations.
Open Scope N_scope.

(** A motion is started, stopped after a few ticks, and the rest is thrown away. *)
Definition stopped_early (X : sf_funs) : list (c_op sf sf) :=
  let A := sf_arith X in [OAppend (linX A 10 10); OStart; OCalc; OStop; OCalc; OCalc; OCalc; OFlush].
(** A dwell of 0 seconds and a motion. *)
Definition dwell_and_go (X : sf_funs) : list (c_op sf sf) :=
  let A := sf_arith X in [OAppend (dwell A 0); OAppend (linX A 10 10); OStart; OCalc].
(** A motion alone. *)
Definition just_go (X : sf_funs) : list (c_op sf sf) :=
  let A := sf_arith X in [OAppend (linX A 10 10); OStart; OCalc].

Section W.
Context {D F : Type} (A : arith D F) (M : machine F).
Fixpoint guarded_b (c : ctrl F) (ops : list (c_op D F)) : bool :=
  match ops with
  | [] => true
  | o :: r => (match o with OStop => negb (c_level c =? 0) | _ => true end) &&
              match c_step A M c o with Ok (c1, _) => guarded_b c1 r | UB => true end
  end.
Lemma guarded_b_true ops : forall c, guarded_b c ops = true -> stops_guarded A M c ops.
Proof.
  induction ops as [|o r IH]; intros c H; cbn [guarded_b stops_guarded] in *; [exact I|].
  apply andb_prop in H. destruct H as [H1 H2]. split; [destruct o; auto; lia|].
  destruct (c_step A M c o) as [[c1 s]|]; auto.
Qed.
Definition st_eqb (s t : motionState) : bool := match s, t with ms_running, ms_running | ms_stopping, ms_stopping | ms_stopped, ms_stopped => true | _, _ => false end.
Lemma st_eqb_true s t : st_eqb s t = true -> s = t. Proof. destruct s, t; cbn; congruence. Qed.
Definition ends (r : res (ctrl F * list step)) (s : motionState) (l : N) : bool :=
  match r with Ok (c, _) => st_eqb (c_state c) s && (c_level c =? l) | UB => false end.
Definition check (c0 : ctrl F) (ops ops1 ops2 : list (c_op D F)) : bool :=
  guarded_b c0 ops &&
  match c_run A M c0 ops with
  | UB => false
  | Ok (c, _) => (c_level c =? 0) && guarded_b c ops1 && guarded_b c ops2 && st_eqb (c_state c) ms_stopped &&
      ends (c_run A M c ops1) ms_running 1 && ends (c_run A M (renewed A c) ops1) ms_stopped 1 && ends (c_run A M c ops2) ms_running 1
  end.
Definition checked (c0 : ctrl F) (ops ops1 ops2 : list (c_op D F)) : Prop :=
  stops_guarded A M c0 ops /\ exists c recs, c_run A M c0 ops = Ok (c, recs) /\ c_level c = 0 /\
    stops_guarded A M c ops1 /\ stops_guarded A M c ops2 /\
    (exists x r, c_run A M c ops1 = Ok (x, r) /\ c_state x = ms_running /\ c_level x = 1) /\
    (exists x r, c_run A M (renewed A c) ops1 = Ok (x, r) /\ c_state x = ms_stopped /\ c_level x = 1) /\
    (exists x r, c_run A M c ops2 = Ok (x, r) /\ c_state x = ms_running /\ c_level x = 1).
Lemma ends_true r s l : ends r s l = true -> exists x t, r = Ok (x, t) /\ c_state x = s /\ c_level x = l.
Proof.
  destruct r as [[x t]|]; cbn; [|discriminate]. intro H. apply andb_prop in H. destruct H as [H1 H2].
  exists x, t. split; auto. split; [apply st_eqb_true; auto|lia].
Qed.
Lemma check_true c0 ops ops1 ops2 : check c0 ops ops1 ops2 = true -> checked c0 ops ops1 ops2.
Proof.
  unfold check, checked. intro H. apply andb_prop in H. destruct H as [H1 H2]. split; [apply guarded_b_true; auto|].
  destruct (c_run A M c0 ops) as [[c r]|]; [|discriminate]. repeat (apply andb_prop in H2; let H := fresh "K" in destruct H2 as [H2 H]).
  exists c, r. split; auto. split; [lia|]. split; [apply guarded_b_true; auto|]. split; [apply guarded_b_true; auto|].
  split; [apply ends_true; auto|]. split; apply ends_true; auto.
Qed.
End W.
Lemma early_check X : let A := sf_arith X in check A (cnc3axis A) (c_init A 4 (tickWidth A)) (stopped_early X) (dwell_and_go X) (just_go X) = true.
Proof. vm_compute. reflexivity. Qed.
Lemma early_checked X : let A := sf_arith X in checked A (cnc3axis A) (c_init A 4 (tickWidth A)) (stopped_early X) (dwell_and_go X) (just_go X).
Proof. cbv zeta. apply check_true. exact (early_check X). Qed.

(** The dwell sees what was in its queue slot. *)
Lemma dwell_trace X : let A := sf_arith X in let M := cnc3axis A in let c0 := c_init A 4 (tickWidth A) in
  exists ops c recs ops', stops_guarded A M c0 ops /\ c_run A M c0 ops = Ok (c, recs) /\ c_level c = 0 /\ stops_guarded A M c ops' /\
    (exists d r, c_run A M c ops' = Ok (d, r) /\ c_state d = ms_running /\ c_level d = 1) /\
    (exists d r, c_run A M (renewed A c) ops' = Ok (d, r) /\ c_state d = ms_stopped /\ c_level d = 1).
Proof.
  cbv zeta. destruct (early_checked X) as (G & c & recs & H & L & G1 & _ & E1 & E2 & _).
  exists (stopped_early X), c, recs, (dwell_and_go X). auto 10.
Qed.
Lemma moves_example X : let A := sf_arith X in let M := cnc3axis A in let c0 := c_init A 4 (tickWidth A) in
  exists c recs, stops_guarded A M c0 (stopped_early X) /\ c_run A M c0 (stopped_early X) = Ok (c, recs) /\ c_level c = 0 /\
    appends_moves (just_go X) /\ stops_guarded A M c (just_go X) /\
    exists d r, c_run A M c (just_go X) = Ok (d, r) /\ c_state d = ms_running /\ c_level d = 1.
Proof.
  cbv zeta. destruct (early_checked X) as (G & c & recs & H & L & _ & G2 & _ & _ & E3).
  exists c, recs. split; auto. split; auto. split; auto. split; [|auto].
  intros m [E|[E|[E|[]]]]; inversion E; subst; reflexivity.
Qed.

(** The same motion without and with the spindle turning at 1000 and both coolants. *)
Definition with_spindle {D F} (A : arith D F) (m : smotion D) : smotion D :=
  mkSM (sm_type m) (sm_length m) (sm_start m) (sm_delta m) (sm_arc0 m) (sm_arc1 m) (sm_center0 m) (sm_center1 m) (sm_radius m)
       (sm_startAngle m) (sm_deltaAngle m) (sm_vFeed m) (sm_duration m) true true (nofZ (aD A) 1000) false.
Section S.
Context {D F : Type} (A : arith D F) (M : machine F).
Definition runs_b (r : res (ctrl F * list step)) (p : ctrl F -> bool) : bool := match r with Ok (c, _) => p c | UB => false end.
Lemma runs_b_true r p : runs_b r p = true -> exists c recs, r = Ok (c, recs) /\ p c = true.
Proof. destruct r as [[c recs]|]; cbn; [|discriminate]. eauto. Qed.
End S.
Lemma spindle_check X : let A := sf_arith X in
  runs_b (c_run A (cnc3axis A) (c_init A 4 (tickWidth A)) [OAppend (with_spindle A (linX A 10 10)); OStart; OCalc])
    (fun c => (c_level c =? 1) && pe_flood (mo_per (c_getHead A c)) && negb (pe_cw (mo_per (c_getHead A c)))) = true.
Proof. vm_compute. reflexivity. Qed.
Lemma spindle_example X : let A := sf_arith X in let M := cnc3axis A in
  let m := linX A 10 10 in let m' := with_spindle A m in
  same_but_settings (F:=sf) (OAppend m) (OAppend m') /\ sm_flood m = false /\ sm_flood m' = true /\ sm_cw m = true /\ sm_cw m' = false /\
  exists c recs, c_run A M (c_init A 4 (tickWidth A)) [OAppend m'; OStart; OCalc] = Ok (c, recs) /\ c_level c = 1.
Proof.
  cbv zeta. split; [constructor; split; reflexivity|]. do 4 (split; [reflexivity|]).
  destruct (runs_b_true _ _ (spindle_check X)) as (c & recs & H & K). exists c, recs. split; [exact H|].
  apply andb_prop in K. destruct K as [K _]. apply andb_prop in K. destruct K as [K _]. apply N.eqb_eq. exact K.
Qed.
