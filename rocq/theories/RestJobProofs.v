(** After a stop, with the rest of the program discarded: C88; example for C87. *)
Require Import List Arith NArith ZArith Bool Reals Lia.
From Coq Require Import Floats.SpecFloat.
From Verif Require Import Base StepModel StepSpec Num NumSF MotionModel CtrlModel CtrlSpec CtrlRSpec ProfileSpec GeomSpec RunSpec FloatSpec FloatRunSpec FloatArcSpec FloatArcProofs RestSpec RestProofs FlushWitness.
Import ListNotations.

Lemma flush_idle X M mt w ops c recs : c_run (sf_arith X) M (c_init (sf_arith X) mt w) ops = Ok (c, recs) -> c_state c = ms_stopped ->
  idle X (c_flush (sf_arith X) c) w (c_fo c) /\ c_pos (c_flush (sf_arith X) c) = c_pos c.
Proof.
  intros H HS. destruct (run_sound (sf_arith X) M w ops _ _ _ (init_sound (sf_arith X) mt w) H) as (H1 & H2 & H3).
  unfold c_flush, c_isRunning. rewrite HS. cbn [negb]. split; [|reflexivity].
  constructor; cbn [c_flushBuffer c_with_queue c_with_st c_state c_level c_head c_items c_st c_fo c_pos]; auto; try lia.
  unfold st_initialize. rewrite H2. reflexivity.
Qed.
Lemma flush_step {D F} (A : arith D F) M c ops r : c_run A M (c_flush A c) ops = r -> c_run A M c (OFlush :: ops) = r.
Proof. intros <-. cbn [c_run c_step rbind]. destruct (c_run A M (c_flush A c) ops) as [[c' recs]|]; reflexivity. Qed.

Open Scope R_scope.
Lemma flush_job : forall X M u, trig_ok X -> funit_ok X M u -> forall w, float32 w (fu_W u) ->
  forall mt ops c recs, c_run (sf_arith X) M (c_init (sf_arith X) mt w) ops = Ok (c, recs) -> c_state c = ms_stopped ->
  forall x0 qs, Forall (move_ok X M (c_fo c) u) qs -> qs <> [] -> (length qs <= 32)%nat -> joined (fu_k u) x0 (map fq_P qs) ->
  (forall i, (i < 3)%nat -> Rabs (fu_k u i * x0 i - counted c i) <= 54/100) ->
  exists c0 legs (n : nat) cn,
    c_run (sf_arith X) M c (OFlush :: map (fun q => OAppend (fq_m q)) qs ++ [OStart]) = Ok (c0, []) /\
    Forall2 (fun g q => executes u g (fq_P q) (fq_l q)) legs qs /\
    (forall j, (j < n)%nat -> exists cj, ticks_run (sf_arith X) M j c0 = Ok cj /\ under_way u x0 legs cj j) /\
    ticks_run (sf_arith X) M n c0 = Ok cn /\ all_done u x0 legs cn n /\ idle X cn w (c_fo c).
Proof.
  intros X M u TO UO w FW mt ops c recs HR HS x0 qs HQ NE HL HJ HC.
  destruct (flush_idle _ _ _ _ _ _ _ HR HS) as [ID EP].
  destruct (arc_job X M (c_fo c) u TO UO w FW (c_flush (sf_arith X) c) x0 qs ID HQ NE HL HJ) as (c0 & legs & n & cn & R1 & R2).
  { intros i Hi. unfold counted. rewrite EP. apply HC. exact Hi. }
  exists c0, legs, n, cn. split; [|exact R2]. apply flush_step. exact R1.
Qed.

(** *** A session in which a moving machine is stopped with two motions queued. *)
Definition moving_check {D F} (A : arith D F) (M : machine F) (c0 : ctrl F) (m : smotion D) : bool :=
  match c_run A M c0 [OAppend m; OAppend m; OStart; OCalc; OCalc] with
  | Ok (c, _) => negb (c_level c =? 0)%N && match queue A (c_stop A M c) with [a; b] => is_move (mo_type a) && is_move (mo_type b) && nltb (aF A) (nofZ (aF A) 0) (entry_speed a) | _ => false end
  | UB => false end.
Lemma moving_true X : moving_check (sf_arith X) (cnc3axis (sf_arith X)) (c_init (sf_arith X) 375 (tickWidth (sf_arith X))) (linX (sf_arith X) 10 10) = true.
Proof. vm_compute. reflexivity. Qed.
Lemma run_last {D F} (A : arith D F) M ops : forall c c1 r1, c_run A M c ops = Ok (c1, r1) ->
  c_run A M c (ops ++ [OStop]) = Ok (c_stop A M c1, r1).
Proof.
  induction ops as [|o ops IH]; intros c c1 r1 H; cbn [c_run app] in *.
  - inversion H; subst. reflexivity.
  - unfold rbind in *. destruct (c_step A M c o) as [[c2 s2]|]; [|discriminate].
    destruct (c_run A M c2 ops) as [[c3 s3]|] eqn:E; [|discriminate]. inversion H; subst. rewrite (IH _ _ _ E). reflexivity.
Qed.
Lemma guarded_last {D F} (A : arith D F) M ops : forall c c1 r1, c_run A M c ops = Ok (c1, r1) -> ~ In OStop ops -> c_level c1 <> 0%N ->
  stops_guarded A M c (ops ++ [OStop]).
Proof.
  induction ops as [|o ops IH]; intros c c1 r1 H NI NZ; cbn [c_run app stops_guarded] in *.
  - inversion H; subst. split; [exact NZ|]. destruct (c_step A M c1 OStop) as [[? ?]|]; exact I.
  - unfold rbind in *. destruct (c_step A M c o) as [[c2 s2]|] eqn:E0; [|discriminate].
    destruct (c_run A M c2 ops) as [[c3 s3]|] eqn:E; [|discriminate]. inversion H; subst. split.
    + destruct o; auto. exfalso. apply NI. left. reflexivity.
    + eapply IH; eauto. intro Q. apply NI. right. exact Q.
Qed.
Lemma moving_spec {D F} (A : arith D F) M c0 m : moving_check A M c0 m = true ->
  let ops := [OAppend m; OAppend m; OStart; OCalc; OCalc; OStop] in
  stops_guarded A M c0 ops /\ exists c recs a b, c_run A M c0 ops = Ok (c, recs) /\ queue A c = [a; b] /\
    is_move (mo_type a) = true /\ is_move (mo_type b) = true /\ nltb (aF A) (nofZ (aF A) 0) (entry_speed a) = true.
Proof.
  intros H ops. unfold moving_check in H. destruct (c_run A M c0 _) as [[c recs]|] eqn:E; [|discriminate].
  apply andb_prop in H. destruct H as [H0 H]. destruct (queue A (c_stop A M c)) as [|a [|b [|? ?]]] eqn:Q; try discriminate.
  apply andb_prop in H. destruct H as [H H3]. apply andb_prop in H. destruct H as [H1 H2].
  change ops with ([OAppend m; OAppend m; OStart; OCalc; OCalc] ++ [@OStop D F]). split.
  - eapply guarded_last; [exact E| |].
    + cbn [In]. intuition discriminate.
    + apply negb_true_iff in H0. apply N.eqb_neq in H0. exact H0.
  - exists (c_stop A M c), recs, a, b. split; [apply run_last; exact E|auto].
Qed.
Lemma moving_example X : let A := sf_arith X in let M := cnc3axis A in let m := linX A 10 10 in
  let ops := [OAppend m; OAppend m; OStart; OCalc; OCalc; OStop] in
  stops_guarded A M (c_init A 375 (tickWidth A)) ops /\ exists c recs a b, c_run A M (c_init A 375 (tickWidth A)) ops = Ok (c, recs) /\ queue A c = [a; b] /\
    is_move (mo_type a) = true /\ is_move (mo_type b) = true /\ nltb (aF A) (nofZ (aF A) 0) (entry_speed a) = true.
Proof. intros A M m. exact (moving_spec A M _ m (moving_true X)). Qed.

Lemma zeros_counted c : c_pos c = [0; 0; 0]%Z -> forall i, (i < 3)%nat -> counted c i = 0.
Proof. intros E i Hi. unfold counted. rewrite E. destruct i as [|[|[|i]]]; try reflexivity. lia. Qed.
Lemma flush_example X : let A := sf_arith X in let M := cnc3axis A in
  exists m1 c recs, c_run A M (c_init A 375 (tickWidth A)) [OAppend m1; OStart; OStop; OCalc] = Ok (c, recs) /\ c_state c = ms_stopped /\
    forall i, (i < 3)%nat -> counted c i = 0.
Proof.
  intros A M. destruct (FlushWitness.flush_jumps X) as (k1 & m1 & k2 & m2 & c & recs & c' & recs' & _ & _ & H1 & H2 & H3 & _).
  exists m1, c, recs. split; [exact H1|]. split; [exact H2|]. apply zeros_counted. exact H3.
Qed.
