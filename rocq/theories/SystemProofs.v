(** Proofs about the whole program. *)
Require Import List Arith NArith ZArith Bool Lia ZifyBool ZifyNat ZifyN.
From Verif Require Import Base BaseProofs EventModel EventSpec EventProofs InputModel StepModel StepSpec
  StepSignalsProofs Num MotionModel CtrlModel CtrlSpec CtrlProofs CtrlQueueProofs CtrlIdleProofs
  HomingModel HomingSpec HomingProofs SystemModel SystemSpec.
Import ListNotations.
Open Scope N_scope.

(** *** Event buffer *)
Lemma push_ok b e : eb_ok b -> eb_ok (eb_push b e) /\
  (forall x, In x (eb_pending (eb_push b e)) -> In x (eb_pending b) \/ x = e).
Proof.
  intro OK.
  pose (q := mkQ (eb_pending b) (eb_lastError b) (eb_levelMax b)).
  assert (R : eb_refines b q) by (split; [exact OK|repeat split]).
  pose proof (eb_step_refines b q (EbPush e) R) as [_ (O1 & P1 & _)]. cbn [eb_step fst] in O1, P1.
  split; [exact O1|]. intros x I. rewrite <- P1 in I.
  destruct (event_eq_dec e ev_none) as [->|N].
  - left. exact I.
  - rewrite push_some_step in I by exact N. destruct (_ <? 16)%nat; cbn [fst q_pending q] in I; auto.
    apply in_app_or in I. destruct I as [I|[I|[]]]; auto.
Qed.
Lemma pushes_ok l : forall b, eb_ok b -> eb_ok (fold_left eb_push l b) /\
  (forall x, In x (eb_pending (fold_left eb_push l b)) -> In x (eb_pending b) \/ In x l).
Proof.
  induction l as [|e l IH]; intros b OK; cbn [fold_left]; [split; auto|].
  destruct (push_ok b e OK) as [O1 I1]. destruct (IH _ O1) as [O2 I2]. split; [exact O2|].
  intros x I. apply I2 in I. destruct I as [I|I]; [|right; right; exact I].
  apply I1 in I. destruct I as [I|I]; [left; exact I | right; left; auto].
Qed.
Lemma pop_ok b : eb_ok b -> eb_ok (fst (eb_pop b)) /\
  (forall x, In x (eb_pending (fst (eb_pop b))) -> In x (eb_pending b)) /\
  (eb_hasEvents b = true -> In (snd (eb_pop b)) (eb_pending b)).
Proof.
  intro OK.
  pose (q := mkQ (eb_pending b) (eb_lastError b) (eb_levelMax b)).
  assert (R : eb_refines b q) by (split; [exact OK|repeat split]).
  pose proof (eb_step_refines b q EbPop R) as [E (O1 & P1 & _)].
  pose proof (eb_pending_length b) as L. unfold eb_hasEvents.
  cbn [eb_step] in E, O1, P1. destruct (eb_pop b) as [b1 e]. cbn [fst snd] in *.
  split; [exact O1|]. cbn [q_step q_pending q] in E, P1. destruct (eb_pending b) as [|x r]; cbn [fst snd q_pending length] in *.
  - split; [intros x I; rewrite <- P1 in I; exact I|]. intro X. lia.
  - rewrite <- P1. split; [intros y I; right; exact I|]. intros _. injection E as ->. left; reflexivity.
Qed.

(** *** Debounced inputs *)
Definition io (d : dbin) : event * event := (db_onOpen d, db_onClose d).
Lemma getEvent_io d raw : io (fst (db_getEvent d raw)) = io d.
Proof. unfold db_getEvent. destruct raw; repeat (destruct (_ <? _)); try match goal with |- context [db_previous ?x] => destruct (db_previous x) end; reflexivity. Qed.
Lemma getEvent_range d raw : let e := snd (db_getEvent d raw) in e = ev_none \/ reports e d.
Proof.
  unfold db_getEvent, reports. destruct raw; repeat (destruct (_ <? _)); try match goal with |- context [db_previous ?x] => destruct (db_previous x) end; cbn; auto.
Qed.
Lemma getEvent_open d : db_current d = true -> db_previous d = true ->
  snd (db_getEvent d true) = ev_none /\ db_current (fst (db_getEvent d true)) = true /\
  db_previous (fst (db_getEvent d true)) = true.
Proof. intros C P. unfold db_getEvent. destruct (_ <? _); rewrite ?P; cbn; auto. Qed.
Lemma reports_io e d d' : io d = io d' -> reports e d -> reports e d'.
Proof. unfold io, reports. intro E. inversion E. tauto. Qed.

Lemma sample_ok l : forall raw b, eb_ok b ->
  let '(l1, b1) := sample_inputs l raw b in
  eb_ok b1 /\ map io l1 = map io l /\
  (forall x, In x (eb_pending b1) -> In x (eb_pending b) \/ (exists d, In d l /\ reports x d)).
Proof.
  induction l as [|d l IH]; intros raw b OK; cbn [sample_inputs]; [split; [exact OK|split; auto]|].
  pose proof (getEvent_io d (hd false raw)) as EI. pose proof (getEvent_range d (hd false raw)) as ER.
  destruct (db_getEvent d (hd false raw)) as [d1 e]. cbn [fst snd] in *.
  set (b1 := if event_eqb ev_none e then b else eb_push b e).
  assert (X : eb_ok b1 /\ (forall x, In x (eb_pending b1) -> In x (eb_pending b) \/ reports x d)).
  { unfold b1. destruct (event_eqb_spec ev_none e) as [E|N]; [split; auto|].
    destruct (push_ok b e OK) as [O1 I1]. split; [exact O1|]. intros x I. apply I1 in I. destruct I as [I| ->]; auto.
    destruct ER as [ER|ER]; [congruence|auto]. }
  clearbody b1. destruct X as [O1 I1]. specialize (IH (tl raw) b1 O1).
  destruct (sample_inputs l (tl raw) b1) as [l1 b2]. destruct IH as (O2 & E2 & I2).
  split; [exact O2|]. split; [cbn [map]; rewrite EI, E2; reflexivity|].
  intros x I. apply I2 in I. destruct I as [I|(d' & I & R)].
  - apply I1 in I. destruct I as [I|R]; [left; exact I|]. right. exists d. split; [left; reflexivity|exact R].
  - right. exists d'. split; [right; exact I | exact R].
Qed.

(** Inputs that could report [e] keep their open position; [e] is not pushed. *)
Lemma sample_open e l : e <> ev_none -> forall raw b, eb_ok b -> ~ In e (eb_pending b) ->
  (forall j d, nth_error l j = Some d -> reports e d ->
     db_current d = true /\ db_previous d = true /\ nth j raw false = true) ->
  let '(l1, b1) := sample_inputs l raw b in
  ~ In e (eb_pending b1) /\
  forall j d, nth_error l1 j = Some d -> reports e d -> db_current d = true /\ db_previous d = true.
Proof.
  intro NE. induction l as [|d l IH]; intros raw b OK NP Q; cbn [sample_inputs].
  - split; [exact NP|]. intros [|j] d X; discriminate.
  - pose proof (getEvent_io d (hd false raw)) as EI. pose proof (getEvent_range d (hd false raw)) as ER.
    pose proof (Q 0%nat d eq_refl) as Q0.
    assert (H0 : nth 0 raw false = hd false raw) by (destruct raw; reflexivity). rewrite H0 in Q0.
    assert (G : reports e d -> snd (db_getEvent d (hd false raw)) = ev_none /\
                db_current (fst (db_getEvent d (hd false raw))) = true /\
                db_previous (fst (db_getEvent d (hd false raw))) = true).
    { intro R. destruct (Q0 R) as (C & P & E). rewrite E. apply getEvent_open; assumption. }
    destruct (db_getEvent d (hd false raw)) as [d1 x]. cbn [fst snd] in *.
    set (b1 := if event_eqb ev_none x then b else eb_push b x).
    assert (X : eb_ok b1 /\ ~ In e (eb_pending b1)).
    { unfold b1. destruct (event_eqb_spec ev_none x) as [E|N]; [split; auto|].
      destruct (push_ok b x OK) as [O1 I1]. split; [exact O1|]. intro I. apply I1 in I. destruct I as [I|E]; auto.
      subst x. destruct ER as [ER|ER]; [congruence|]. apply G in ER. destruct ER as [ER _]. congruence. }
    clearbody b1. destruct X as [O1 N1]. specialize (IH (tl raw) b1 O1 N1).
    assert (Q1 : forall j d0, nth_error l j = Some d0 -> reports e d0 ->
              db_current d0 = true /\ db_previous d0 = true /\ nth j (tl raw) false = true).
    { intros j d0 X R. destruct (Q (S j) d0 X R) as (C & P & E). repeat split; auto.
      destruct raw; [destruct j; discriminate E | exact E]. }
    specialize (IH Q1). destruct (sample_inputs l (tl raw) b1) as [l1 b2]. destruct IH as [N2 L2].
    split; [exact N2|]. intros [|j] d0 X R; [|exact (L2 j d0 X R)].
    injection X as <-. apply (reports_io e d1 d EI) in R. apply G in R. tauto.
Qed.

(** *** The calls homing can make *)
Section Sys.
Context {D F : Type} (A : arith D F) (M : machine F) (H : hcfg D F).
Local Notation K := (aF A).

Definition plain_call (x : haction D) : Prop :=
  x = DoStop \/ (exists e, x = DoPush e) \/
  exists a, (a < 3)%nat /\ In x (seek A H a ++ release A H a ++ clear A H a).

Lemma homeable_lt a : homeable H a = true -> (a < 3)%nat.
Proof. unfold homeable. intro E. apply andb_prop in E as [E _]. apply Nat.ltb_lt, E. Qed.

Lemma home_calls l closed : Forall (fun a => (a < 3)%nat) l -> Forall plain_call (fst (home A H l closed)).
Proof.
  intro L. destruct l as [|a r]; cbn [home].
  - cbn [fst]. constructor; [|constructor]. right; left. eexists; reflexivity.
  - inversion L; subst. apply Forall_forall. intros x I. right; right. exists a. split; [assumption|].
    rewrite !in_app_iff. destruct (closed (switch_input H a)); cbn [fst] in I; auto.
Qed.
Lemma route_lt l : Forall (fun a => (a < 3)%nat) (filter (homeable H) l).
Proof. apply Forall_forall. intros a I. apply filter_In in I as [_ I]. apply homeable_lt, I. Qed.

Lemma one_stop : Forall plain_call [DoStop].
Proof. constructor; [left; reflexivity | constructor]. Qed.
Lemma part_calls a l : (a < 3)%nat -> incl l (seek A H a ++ release A H a ++ clear A H a) -> Forall plain_call l.
Proof. intros L I. apply Forall_forall. intros x X. right; right. exists a. split; [exact L | apply I, X]. Qed.

Lemma handle_calls closed e h p : sim A H h p ->
  let '(h1, acts) := h_handle A H closed e h in
  (exists p1, sim A H h1 p1) /\ Forall plain_call acts.
Proof.
  intro S0. pose proof (handle_sim A H closed e h p S0) as X.
  destruct (h_handle A H closed e h) as [h1 acts].
  unfold sim in S0.
  assert (R : forall a, incl (release A H a) (seek A H a ++ release A H a ++ clear A H a))
    by (intros a x I; rewrite !in_app_iff; auto).
  assert (C : forall a, incl (clear A H a) (seek A H a ++ release A H a ++ clear A H a))
    by (intros a x I; rewrite !in_app_iff; auto).
  destruct (h_state h);
    try (subst p; destruct X as [-> X]; split; [eexists; exact X | constructor]);
    destruct S0 as (a & r & (L & _ & _ & _ & _ & _ & E) & ->).
  all: try (cbn [back snd] in X; destruct (event_eq_dec e _) in X;
            [|destruct X as [-> X]; split; [eexists; exact X | constructor]]).
  - destruct X as [-> X]. split; [eexists; exact X|]. apply home_calls. constructor; [exact L|]. rewrite <- E. apply route_lt.
  - destruct X as [-> X]. split; [eexists; exact X|]. apply one_stop.
  - destruct X as [-> X]. split; [eexists; exact X|]. apply (part_calls a); auto. apply R.
  - destruct X as [-> X]. split; [eexists; exact X|]. apply one_stop.
  - destruct X as [-> X]. split; [eexists; exact X|]. apply (part_calls a); auto. apply C.
  - destruct X as [-> X]. split; [eexists; exact X|]. apply home_calls. rewrite <- E. apply route_lt.
Qed.

Lemma start_calls running closed :
  let '(h1, acts) := h_start A H running closed h_init in
  (exists p1, sim A H h1 p1) /\ Forall plain_call acts.
Proof.
  pose proof (start_sim A H running closed h_init (or_introl eq_refl)) as X.
  destruct (h_start A H running closed h_init) as [h1 acts]. destruct X as [-> X].
  split; [eexists; exact X|]. unfold begin_homing. 
  pose proof (route_lt (hc_seq H)) as L. fold (route H) in L.
  destruct (route H) as [|a r].
  - constructor; [|constructor]. right; left; eexists; reflexivity.
  - destruct running.
    + cbn [fst]. constructor; [right; left; eexists; reflexivity|]. apply one_stop.
    + pose proof (home_calls (a :: r) closed L) as Y. destruct (home A H (a :: r) closed) as [acts p]. cbn [fst] in *.
      constructor; [right; left; eexists; reflexivity | exact Y].
Qed.

(** *** Motions that move a single axis *)
Definition single (o : motion F) : Prop := exists a, forall i, i <> a -> mo_isMoving A o i = false.
Lemma single_key o o' : key o = key o' -> single o -> single o'.
Proof.
  unfold key, single, mo_isMoving. intro E. injection E as _ E _. rewrite E. exact (fun x => x).
Qed.
Lemma single_keys l l' : map key l' = map key l -> Forall single l -> Forall single l'.
Proof.
  revert l'; induction l as [|o l IH]; intros [|o' l'] E; try discriminate; intro S0; [constructor|].
  cbn [map] in E. injection E as E1 E2. inversion S0; subst. constructor; [|apply IH; auto].
  apply (single_key o); [|assumption]. unfold key. f_equal; [f_equal|]; auto.
Qed.

Lemma nth_upd_other {T} (l : list T) i j x d : i <> j -> nth i (upd l j x) d = nth i l d.
Proof.
  revert i j; induction l as [|y l IH]; intros i [|j] N; destruct i; cbn; auto; try congruence.
Qed.
Lemma motion_single o pos a off sp fo s : (tidy A H) -> (clean_call A) (DoMove a off sp) ->
  single (mo_set A M o (sm_set A (sm_default A) pos a off sp) fo s).
Proof.
  intros [Z0 _] C. exists a. intros i N. unfold mo_isMoving.
  assert (E : mo_traj (mo_set A M o (sm_set A (sm_default A) pos a off sp) fo s) =
              traj_set A (sm_set A (sm_default A) pos a off sp)).
  { pose proof (holds_set A M o (sm_set A (sm_default A) pos a off sp) fo s) as (_ & _ & T). apply T. discriminate. }
  rewrite E. clear E. unfold traj_set, nthF. cbn [t_dRT axes map].
  assert (X : forall j, j <> a ->
     neqb K (d2f A (ndiv (aD A) (nthD A (sm_delta (sm_set A (sm_default A) pos a off sp)) j)
                         (sm_length (sm_set A (sm_default A) pos a off sp)))) (nofZ K 0) = true).
  { intros j NJ. unfold sm_set, nthD. cbn [sm_delta sm_length]. rewrite nth_upd_other by exact NJ.
    assert (E : nth j (sm_delta (sm_default A)) (nofZ (aD A) 0) = nofZ (aD A) 0).
    { unfold sm_default. cbn [sm_delta axes map]. destruct j as [|[|[|[|j]]]]; reflexivity. }
    rewrite E. exact C. }
  unfold is_arc. unfold sm_set at 1 2 4 5 7 8. unfold sm_default at 1 2 4 5 7 8. cbn [sm_arc0 sm_arc1 Nat.eqb orb].
  destruct i as [|[|[|i]]]; cbn [nth].
  - change (negb (neqb K (d2f A (ndiv (aD A) (nthD A (sm_delta (sm_set A (sm_default A) pos a off sp)) 0)
                         (sm_length (sm_set A (sm_default A) pos a off sp)))) (nofZ K 0)) = false). rewrite X; auto.
  - change (negb (neqb K (d2f A (ndiv (aD A) (nthD A (sm_delta (sm_set A (sm_default A) pos a off sp)) 1)
                         (sm_length (sm_set A (sm_default A) pos a off sp)))) (nofZ K 0)) = false). rewrite X; auto.
  - change (negb (neqb K (d2f A (ndiv (aD A) (nthD A (sm_delta (sm_set A (sm_default A) pos a off sp)) 2)
                         (sm_length (sm_set A (sm_default A) pos a off sp)))) (nofZ K 0)) = false). rewrite X; auto.
  - change (negb (neqb K (nth (S (S (S i))) [] (nofZ K 0)) (nofZ K 0)) = false) || idtac.
    destruct i; cbn [nth]; rewrite Z0; reflexivity.
Qed.

(** *** What the calls leave alone *)
Lemma do_frame (c : ctrl F) x : let c' := do_action A M c x in c_sig c' = c_sig c /\ c_pos c' = c_pos c.
Proof.
  destruct x as [|a off sp|e]; cbn [do_action].
  - unfold c_stop. match goal with |- context [c_optimize A M ?x] => destruct (optimize_keep A M x) as (E1 & E2 & _) end.
    rewrite E1, E2. split; reflexivity.
  - set (m := h_motion _ _ _ _ _ _). set (c1 := c_flush A c).
    assert (E : c_sig c1 = c_sig c /\ c_pos c1 = c_pos c) by (unfold c1, c_flush; destruct (c_isRunning c); split; reflexivity).
    destruct (append_keep A M c1 m) as (E1 & E2 & _). unfold c_start.
    destruct (c_isEmpty (c_append A M c1 m)); cbn [negb].
    + rewrite E1, E2. exact E.
    + match goal with |- context [c_optimize A M ?x] => destruct (optimize_keep A M x) as (E3 & E4 & _) end.
      rewrite E3, E4. cbn [c_sig c_pos c_with_state c_emit]. rewrite E1, E2. exact E.
  - split; reflexivity.
Qed.
Lemma do_all_frame l : forall (c : ctrl F), let c' := do_actions A M c l in c_sig c' = c_sig c /\ c_pos c' = c_pos c.
Proof.
  induction l as [|x l IH]; intro c; cbn [do_actions fold_left]; [split; reflexivity|].
  destruct (IH (do_action A M c x)) as [E1 E2]. destruct (do_frame c x) as [E3 E4].
  unfold do_actions in E1, E2. rewrite E1, E2, E3, E4. split; reflexivity.
Qed.

Lemma Forall_upd {T} (P : T -> Prop) l i x : Forall P l -> P x -> Forall P (upd l i x).
Proof.
  revert i; induction l as [|y l IH]; intros i L X; destruct i; cbn; auto; inversion L; subst; constructor; auto.
Qed.
Lemma do_single (c : ctrl F) x : (tidy A H) -> (clean_call A) x -> Forall single (c_items c) ->
  Forall single (c_items (do_action A M c x)).
Proof.
  intros T C S0. destruct x as [|a off sp|e]; cbn [do_action].
  - unfold c_stop. apply (single_keys (c_items c)); [|exact S0]. rewrite keys_optimize. reflexivity.
  - set (c1 := c_flush A c).
    assert (E : Forall single (c_items c1)) by (unfold c1, c_flush; destruct (c_isRunning c); exact S0).
    assert (E2 : Forall single (c_items (c_append A M c1 (h_motion A M c1 a off sp)))).
    { unfold c_append. destruct (c_isFull c1); [exact E|]. cbn [negb].
      cbn [c_push c_set_item c_with_items c_items]. unfold rset. apply Forall_upd; [exact E|].
      apply motion_single; assumption. }
    unfold c_start. destruct (negb _); [|exact E2].
    apply (single_keys (c_items (c_append A M c1 (h_motion A M c1 a off sp)))); [|exact E2].
    rewrite keys_optimize. reflexivity.
  - exact S0.
Qed.
Lemma do_all_single l : (tidy A H) -> Forall (clean_call A) l -> forall (c : ctrl F), Forall single (c_items c) ->
  Forall single (c_items (do_actions A M c l)).
Proof.
  intro T. induction l as [|x l IH]; intros C c S0; [exact S0|]. inversion C; subst. cbn [do_actions fold_left].
  apply IH; [assumption|]. apply do_single; assumption.
Qed.

Lemma plain_clean l : (tidy A H) -> Forall plain_call l -> Forall (clean_call A) l.
Proof.
  intros [_ T] P. induction P as [|x l [-> | [[e ->] | (a & L & I)]] P IH]; constructor; try exact I; auto.
  specialize (T a L). rewrite Forall_forall in T. apply T, I.
Qed.

Lemma advance_items f : forall (c c' : ctrl F), c_advance A M f c = Ok c' -> c_items c' = c_items c.
Proof.
  assert (MV : forall l o d (c c' : ctrl F), c_moveAxes A M o d c l = Ok c' -> c_items c' = c_items c).
  { induction l as [|i l IH]; intros o d c c' E; cbn [c_moveAxes] in E; [injection E as <-; reflexivity|].
    unfold rbind in E. destruct (c_moveAxis A M o d c i) as [c1|] eqn:E1; [|discriminate].
    rewrite (IH _ _ _ _ E). unfold c_moveAxis, c_trackAxis, rbind in E1. destruct (mo_isMoving A o i).
    - destruct (c_decide A M c i _) as [[dd|]|]; try discriminate; [|injection E1 as <-; reflexivity].
      unfold c_stepAxis in E1. destruct (int32_ok _); [|discriminate]. injection E1 as <-. reflexivity.
    - injection E1 as <-. reflexivity. }
  induction f as [|f IH]; intros c c' E; cbn [c_advance] in E; destruct (st_isBeyond _ _ _).
  - destruct (1 <? c_level c); [discriminate|]. injection E as <-. reflexivity.
  - apply MV in E. exact E.
  - destruct (1 <? c_level c).
    + apply IH in E. exact E.
    + injection E as <-. reflexivity.
  - apply MV in E. exact E.
Qed.
Lemma tick_items (c c' : ctrl F) : c_tick A M c = Ok c' -> c_items c' = c_items c.
Proof.
  unfold c_tick. destruct (c_isRunning _); [|intro E; injection E as <-; reflexivity].
  destruct (st_isBeyond _ _ _); intro E; apply advance_items in E; exact E.
Qed.
Lemma calc_items n : forall (c c' : ctrl F) s, c_calc A M n c = Ok (Some (c', s)) -> c_items c' = c_items c.
Proof.
  induction n as [|n IH]; intros c c' s E; cbn [c_calc] in E; [discriminate|].
  unfold rbind in E. destruct (c_tick A M c) as [c1|] eqn:E1; [|discriminate]. apply tick_items in E1.
  destruct (_ || _).
  - cbn [sg_output] in E. injection E as <- _. exact E1.
  - apply IH in E. congruence.
Qed.

(** *** Invariant of the program *)
Definition sys_inv (y : sys F) : Prop :=
  eb_ok (y_ev y) /\ length (c_pos (y_c y)) = 3%nat /\ sg_ticks (c_sig (y_c y)) = 0 /\
  sg_maxTicks (c_sig (y_c y)) = 375 /\ map io (y_in y) = map io myInputs /\ c_events (y_c y) = [] /\
  (exists p, sim A H (y_h y) p) /\ ((tidy A H) -> Forall single (c_items (y_c y))).

Lemma calc_sig (c c' : ctrl F) s : length (c_pos c) = 3%nat ->
  c_calc A M (N.to_nat (N.max 1 (sg_maxTicks (c_sig c)))) c = Ok (Some (c', s)) ->
  length (c_pos c') = 3%nat /\ sg_maxTicks (c_sig c') = sg_maxTicks (c_sig c) /\ (sg_ticks (c_sig c) = 0 -> sg_ticks (c_sig c') = 0).
Proof.
  intros L E.
  assert (X : c_step A M c OCalc = Ok (c', [s])) by (cbn [c_step]; rewrite E; reflexivity).
  destruct (step_run A M c c' OCalc [s] L X) as (css & _ & G & _ & L' & T & _).
  split; [exact L'|]. split; [|exact T]. 
  assert (R : c_run A M c [OCalc] = Ok (c', [s])) by (cbn [c_run]; rewrite X; reflexivity).
  apply (run_sig A M [OCalc] c c' [s] L R).
Qed.

Lemma inv_step y o y' : sys_inv y -> y_step A M H y o = Ok y' -> sys_inv y'.
Proof.
  intros (I1 & I2 & I3 & I4 & I5 & I6 & (p & I7) & I8) E. destruct o as [| |raw|]; cbn [y_step] in E.
  - destruct (sb_needsFilling (y_sb y)).
    + unfold rbind in E. destruct (c_calc A M _ (y_c y)) as [[[c s]|]|] eqn:EC; try discriminate.
      injection E as <-. pose proof (calc_items _ _ _ _ EC) as EI. apply calc_sig in EC; [|exact I2].
      destruct EC as (C1 & C2 & C3). unfold sys_inv, drain.
      cbn [y_c y_ev y_in y_h c_pos c_sig c_events c_items]. rewrite C2, EI.
      split; [apply pushes_ok, I1|]. repeat split; auto. exists p; exact I7.
    + injection E as <-. repeat split; try assumption; try apply I1. exists p; exact I7.
  - injection E as <-. unfold sys_inv. cbn [y_c y_ev y_in y_h]. split; [exact I1|]. repeat split; auto. exists p; exact I7.
  - pose proof (sample_ok (y_in y) raw (y_ev y) I1) as X. destruct (sample_inputs (y_in y) raw (y_ev y)) as [l b].
    injection E as <-. destruct X as (X1 & X2 & _). unfold sys_inv. cbn [y_c y_ev y_in y_h].
    split; [exact X1|]. rewrite X2. repeat split; auto. exists p; exact I7.
  - destruct (eb_hasEvents (y_ev y)) eqn:HE.
    + pose proof (pop_ok (y_ev y) I1) as (P1 & _). destruct (eb_pop (y_ev y)) as [b e].
      pose proof (handle_calls (reading y) e (y_h y) p I7) as X.
      destruct (h_handle A H (reading y) e (y_h y)) as [h acts]. destruct X as [X1 X2].
      destruct (in_range y h); [|discriminate]. injection E as <-. unfold sys_inv, drain.
      cbn [y_c y_ev y_in y_h c_pos c_sig c_events c_items]. 
      destruct (do_all_frame acts (y_c y)) as [E1 E2]. rewrite E1, E2.
      split; [apply pushes_ok, P1|]. repeat split; auto.
      intro T. apply do_all_single; auto. apply plain_clean; auto.
    + injection E as <-. repeat split; try assumption; try apply I1. exists p; exact I7.
Qed.
Lemma inv_run ops : forall y y', sys_inv y -> y_run A M H y ops = Ok y' -> sys_inv y'.
Proof.
  induction ops as [|o ops IH]; intros y y' I E; cbn [y_run] in E; [injection E as <-; exact I|].
  unfold rbind in E. destruct (y_step A M H y o) as [y1|] eqn:E1; [|discriminate].
  apply (IH y1); [|exact E]. apply (inv_step y o); assumption.
Qed.

Lemma init_io l : forall raw, map io (init_inputs l raw) = map io l.
Proof.
  induction l as [|d l IH]; intro raw; cbn [init_inputs map]; [reflexivity|]. rewrite IH. f_equal.
  unfold db_initialize. destruct (hd false raw); reflexivity.
Qed.

Lemma inv_setup width sb raw y : y_setup A M H width sb raw = Ok y -> sys_inv y.
Proof.
  unfold y_setup. set (c := c_resetPosition _). set (y0 := mkSys _ _ _ _ _). cbn [y_h y0].
  pose proof (start_calls (c_isRunning c) (reading y0)) as X.
  destruct (h_start A H (c_isRunning c) (reading y0) h_init) as [h acts]. destruct X as [X1 X2].
  destruct (in_range y0 h); [|discriminate]. intro E. injection E as <-.
  unfold sys_inv, drain. cbn [y_c y_ev y_in y_h c_pos c_sig c_events c_items y0].
  destruct (do_all_frame acts c) as [E1 E2]. rewrite E1, E2.
  split; [apply pushes_ok; repeat split; reflexivity || discriminate|]. pose proof (init_io myInputs raw) as EIO. split; [reflexivity|]. split; [reflexivity|]. split; [reflexivity|]. split; [exact EIO|]. split; [reflexivity|]. split; [exact X1|].
  intro T. apply do_all_single; auto; [apply plain_clean; auto|]. cbn [c c_resetPosition c_with_pos c_items c_init].
  apply Forall_forall. intros o I. apply repeat_spec in I. subst o. exists 0%nat. intros i _.
  unfold mo_isMoving, mo_zero, nthF. cbn [mo_traj t_dRT axes map]. destruct T as [Z0 _].
  destruct i as [|[|[|[|i]]]]; cbn [nth]; rewrite Z0; reflexivity.
Qed.

Lemma reachable_inv width y : reachable A M H width y -> sys_inv y.
Proof. intros (sb & raw & y0 & ops & _ & E1 & E2). apply (inv_run ops y0); [|exact E2]. apply (inv_setup _ _ _ _ E1). Qed.

(** *** One axis at a time *)
Lemma nth_upd_same {T} (l : list T) i x d : (i < length l)%nat -> nth i (upd l i x) d = x.
Proof. revert i; induction l as [|y l IH]; intros [|i] L; cbn in *; try lia; auto. apply IH; lia. Qed.

Lemma moveAxis_others o d (c c' : ctrl F) i : c_moveAxis A M o d c i = Ok c' ->
  (forall j, j <> i -> nth j (c_pos c') 0%Z = nth j (c_pos c) 0%Z) /\
  (mo_isMoving A o i = false -> c_pos c' = c_pos c).
Proof.
  unfold c_moveAxis, c_trackAxis, rbind. intro E. destruct (mo_isMoving A o i).
  - split; [|discriminate]. intros j N.
    destruct (c_decide A M c i _) as [[dd|]|]; try discriminate; [|injection E as <-; reflexivity].
    unfold c_stepAxis in E. destruct (int32_ok _); [|discriminate]. injection E as <-.
    cbn [c_pos c_with_pos]. apply nth_upd_other, N.
  - injection E as <-. split; reflexivity.
Qed.
Lemma moveAxes_single o d a l : (forall i, i <> a -> mo_isMoving A o i = false) ->
  forall (c c' : ctrl F), c_moveAxes A M o d c l = Ok c' -> forall i, i <> a -> nth i (c_pos c') 0%Z = nth i (c_pos c) 0%Z.
Proof.
  intro S0. induction l as [|j l IH]; intros c c' E i N; cbn [c_moveAxes] in E; [injection E as <-; reflexivity|].
  unfold rbind in E. destruct (c_moveAxis A M o d c j) as [c1|] eqn:E1; [|discriminate].
  rewrite (IH _ _ E i N). apply moveAxis_others in E1. destruct E1 as [E1 E2].
  destruct (Nat.eq_dec i j) as [->|NE]; [|apply E1, NE]. rewrite E2; [reflexivity|]. apply S0, N.
Qed.
Lemma item_single (c : ctrl F) i : (tidy A H) -> Forall single (c_items c) -> single (item A c i).
Proof.
  intros T S0. unfold item, rget. destruct (nth_in_or_default (N.to_nat i) (c_items c) (mo_zero A)) as [I|E].
  - rewrite Forall_forall in S0. apply S0, I.
  - rewrite E. exists 0%nat. intros j _. unfold mo_isMoving, mo_zero, nthF. cbn [mo_traj t_dRT axes map]. destruct T as [Z0 _].
    destruct j as [|[|[|[|j]]]]; cbn [nth]; rewrite Z0; reflexivity.
Qed.
Lemma advance_single f : (tidy A H) -> forall (c c' : ctrl F), Forall single (c_items c) -> c_advance A M f c = Ok c' ->
  one_axis (c_pos c) (c_pos c').
Proof.
  intro T.
  assert (MV : forall (c c' : ctrl F), Forall single (c_items c) -> c_move A M c = Ok c' -> one_axis (c_pos c) (c_pos c')).
  { intros c c' S0 E. unfold c_move in E. destruct (item_single c (c_head c) T S0) as [a SA]. exists a. intros i N.
    symmetry. apply (moveAxes_single _ _ a _ SA _ _ E i N). }
  induction f as [|f IH]; intros c c' S0 E; cbn [c_advance] in E; destruct (st_isBeyond _ _ _).
  - destruct (1 <? c_level c); [discriminate|]. injection E as <-. exists 0%nat; reflexivity.
  - apply MV in E; assumption.
  - destruct (1 <? c_level c).
    + apply IH in E; [exact E|exact S0].
    + injection E as <-. exists 0%nat; reflexivity.
  - apply MV in E; assumption.
Qed.
Lemma tick_single (c c' : ctrl F) : (tidy A H) -> Forall single (c_items c) -> c_tick A M c = Ok c' ->
  one_axis (c_pos c) (c_pos c').
Proof.
  intros T S0. unfold c_tick. destruct (c_isRunning _).
  - destruct (st_isBeyond _ _ _); intro E; apply advance_single in E; try exact E; try exact T; exact S0.
  - intro E; injection E as <-. exists 0%nat; reflexivity.
Qed.
Lemma ticks_items n : forall (c c' : ctrl F), ticks_run A M n c = Ok c' -> c_items c' = c_items c.
Proof.
  induction n as [|n IH]; intros c c' E; cbn [ticks_run] in E; [injection E as <-; reflexivity|].
  unfold rbind in E. destruct (c_tick A M c) as [c1|] eqn:E1; [|discriminate]. apply tick_items in E1. apply IH in E. congruence.
Qed.
Lemma one_axis_lemma width y n c1 c2 : (tidy A H) -> reachable A M H width y ->
  ticks_run A M n (y_c y) = Ok c1 -> c_tick A M c1 = Ok c2 -> one_axis (c_pos c1) (c_pos c2).
Proof.
  intros T R E1 E2. apply reachable_inv in R. destruct R as (_ & _ & _ & _ & _ & _ & _ & S0).
  apply ticks_items in E1. apply (tick_single c1 c2 T); [|exact E2]. rewrite E1. apply S0, T.
Qed.

(** *** Waiting for ever *)
Lemma pending_fold y : contents ev_none (eb_arr (y_ev y)) eb_length (eb_head (y_ev y)) (eb_level (y_ev y)) = eb_pending (y_ev (F:=F) y).
Proof. reflexivity. Qed.

Lemma calc_stopped_frame (c : ctrl F) : c_state c = ms_stopped -> length (c_pos c) = 3%nat ->
  sg_maxTicks (c_sig c) = 375 -> sg_ticks (c_sig c) = 0 ->
  exists g s, c_calc A M (N.to_nat (N.max 1 (sg_maxTicks (c_sig c)))) c = Ok (Some (c_with_sig c g, s)) /\
    sg_maxTicks g = 375 /\ sg_ticks g = 0.
Proof.
  intros S0 L MT T. destruct (calc_stopped_ok A M c S0 L) as (g & s & k & E & _ & _ & GT & _); [rewrite MT; reflexivity|exact T|].
  exists g, s. split; [exact E|]. split; [|exact GT].
  destruct (calc_sig c (c_with_sig c g) s L E) as (_ & G & _). cbn [c_sig c_with_sig] in G. congruence.
Qed.

Definition waiting (e : event) (y : sys F) : Prop :=
  sys_inv y /\ c_state (y_c y) = ms_stopped /\ h_state (y_h y) = hs_closing /\ h_close (y_h y) = e /\ e <> ev_none /\
  h_switch (y_h y) < 9 /\ not_pending e y /\ holds_open e y.

Lemma in_range9 (y : sys F) : sys_inv y -> length (y_in y) = 9%nat.
Proof.
  intros (_ & _ & _ & _ & I & _). apply (f_equal (@length _)) in I. rewrite !map_length in I. exact I.
Qed.
Lemma io_nth (l l' : list dbin) j d : map io l = map io l' -> nth_error l j = Some d ->
  exists d', nth_error l' j = Some d' /\ io d = io d'.
Proof.
  revert l' j; induction l as [|x l IH]; intros [|x' l'] [|j] E N; cbn in *; try discriminate.
  - injection N as <-. exists x'. split; [reflexivity|congruence].
  - apply IH with (l' := l') in N; [exact N|congruence].
Qed.

Ltac conj := repeat (match goal with |- _ /\ _ => split end); auto.
Lemma waiting_step e y o : waiting e y -> sampled_open e [o] ->
  exists y', y_step A M H y o = Ok y' /\ waiting e y' /\ y_h y' = y_h y /\ c_pos (y_c y') = c_pos (y_c y) /\
    forall x, In x (eb_pending (y_ev y')) -> In x (eb_pending (y_ev y)) \/ exists d, In d myInputs /\ reports x d.
Proof.
  intros (I & W1 & W2 & W3 & W4 & W5 & W6 & W7) SO.
  assert (X : exists y', y_step A M H y o = Ok y' /\ c_state (y_c y') = ms_stopped /\ y_h y' = y_h y /\
            not_pending e y' /\ holds_open e y' /\ c_pos (y_c y') = c_pos (y_c y) /\
            forall x, In x (eb_pending (y_ev y')) -> In x (eb_pending (y_ev y)) \/ exists d, In d myInputs /\ reports x d).
  { pose proof I as (I1 & I2 & I3 & I4 & I5 & I6 & (p & I7) & I8). unfold not_pending, holds_open in *. rewrite pending_fold in W6.
    destruct o as [| |raw|]; cbn [y_step].
    - destruct (sb_needsFilling (y_sb y)).
      + destruct (calc_stopped_frame (y_c y) W1 I2 I4 I3) as (g & s & E & _). rewrite E. cbn [rbind].
        eexists. split; [reflexivity|]. unfold drain. cbn [y_c y_ev y_in y_h c_with_sig c_events c_state c_pos].
        rewrite I6. cbn [fold_left]. conj.
      + exists y. conj.
    - eexists. split; [reflexivity|]. cbn [y_c y_ev y_in y_h]. conj.
    - pose proof (sample_ok (y_in y) raw (y_ev y) I1) as S1.
      pose proof (sample_open e (y_in y) W4 raw (y_ev y) I1 W6) as S2.
      assert (Q : forall j d, nth_error (y_in y) j = Some d -> reports e d ->
                  db_current d = true /\ db_previous d = true /\ nth j raw false = true).
      { intros j d N R. destruct (W7 j d N R) as [C P]. conj.
        destruct (io_nth _ _ _ _ I5 N) as (d' & N' & E'). apply (SO raw j d'); auto; [left; reflexivity|].
        apply (reports_io e d d' E' R). }
      specialize (S2 Q). destruct (sample_inputs (y_in y) raw (y_ev y)) as [l b].
      destruct S1 as (O1 & E1 & P1). destruct S2 as [N1 Q1].
      eexists. split; [reflexivity|]. cbn [y_c y_ev y_in y_h]. conj.
      + intros x IX. apply P1 in IX. destruct IX as [IX|(d & ID & R)]; [left; exact IX|right].
        apply In_nth_error in ID. destruct ID as [j N]. destruct (io_nth _ _ _ _ I5 N) as (d' & N' & E').
        exists d'. split; [apply nth_error_In in N'; exact N'|]. apply (reports_io x d d' E' R).
    - destruct (eb_hasEvents (y_ev y)) eqn:HE.
      + pose proof (pop_ok (y_ev y) I1) as (P1 & P2 & P3). specialize (P3 HE).
        destruct (eb_pop (y_ev y)) as [b x]. cbn [fst snd] in *.
        assert (NX : x <> e) by (intros ->; exact (W6 P3)).
        unfold h_handle. rewrite W2, W3. destruct (event_eqb_spec e x) as [EX|_]; [congruence|].
        unfold in_range. rewrite (in_range9 y I). replace (h_switch (y_h y) <? N.of_nat 9) with true by (symmetry; apply N.ltb_lt; exact W5).
        eexists. split; [reflexivity|]. unfold drain. cbn [y_c y_ev y_in y_h do_actions fold_left c_events c_state c_pos].
        rewrite I6. cbn [fold_left]. conj.
      + exists y. conj. }
  destruct X as (y' & E & X1 & X2 & X3 & X4 & X5 & X6). exists y'. split; [exact E|].
  split; [|auto]. pose proof (inv_step y o y' I E). unfold waiting. rewrite X2. conj; apply H0.
Qed.

Lemma waiting_run e ops : forall y, waiting e y -> sampled_open e ops ->
  exists y', y_run A M H y ops = Ok y' /\ waiting e y' /\ y_h y' = y_h y /\ c_pos (y_c y') = c_pos (y_c y) /\
    forall x, In x (eb_pending (y_ev y')) -> In x (eb_pending (y_ev y)) \/ exists d, In d myInputs /\ reports x d.
Proof.
  induction ops as [|o ops IH]; intros y W SO; [exists y; conj; apply W|].
  destruct (waiting_step e y o W) as (y1 & E1 & W1 & H1 & P1 & X1).
  { intros raw j d [IN|[]]. apply (SO raw j d). left; exact IN. }
  destruct (IH y1 W1) as (y2 & E2 & W2 & H2 & P2 & X2).
  { intros raw j d IN. apply (SO raw j d). right; exact IN. }
  exists y2. cbn [y_run]. rewrite E1. cbn [rbind]. split; [exact E2|]. split; [exact W2|].
  split; [congruence|]. split; [congruence|]. intros x I. apply X2 in I. destruct I as [I|I]; [|right; exact I]. apply X1, I.
Qed.

Lemma stuck_lemma width y ops : reachable A M H width y ->
  h_state (y_h y) = hs_closing -> c_state (y_c y) = ms_stopped -> h_switch (y_h y) < 9 ->
  let e := h_close (y_h y) in
  not_pending e y -> holds_open e y -> sampled_open e ops ->
  exists y', y_run A M H y ops = Ok y' /\ y_h y' = y_h y /\ c_state (y_c y') = ms_stopped /\
    c_pos (y_c y') = c_pos (y_c y) /\
    forall x, ~ not_pending x y' -> ~ not_pending x y \/ exists d, In d myInputs /\ reports x d.
Proof.
  intros R HS CS SW e NP HO SO. apply reachable_inv in R.
  assert (NE : e <> ev_none).
  { destruct R as (_ & _ & _ & _ & _ & _ & (p & SI) & _). unfold sim in SI. rewrite HS in SI.
    destruct SI as (a & r & (L & _ & _ & EC & _) & _). unfold e. rewrite EC.
    destruct (up H a), a as [|[|[|a]]]; try lia; discriminate. }
  destruct (waiting_run e ops y) as (y' & E & W & EH & EP & X); [unfold waiting; conj | exact SO |].
  exists y'. split; [exact E|]. split; [exact EH|]. split; [apply W|]. split; [exact EP|].
  intros x NX. unfold not_pending in *. rewrite pending_fold in NX.
  destruct (in_dec event_eq_dec x (eb_pending (y_ev y'))) as [I|NI]; [|tauto].
  apply X in I. destruct I as [I|I]; [left; intro Y; exact (Y I) | right; exact I].
Qed.
End Sys.
