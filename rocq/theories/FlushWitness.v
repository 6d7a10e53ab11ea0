(** Concrete session for C88: a program stopped before it moved is discarded, and its next line executed. *)
Require Import String List Arith NArith ZArith Bool Lia.
From Verif Require Import Base Num NumSF StepModel StepSpec MotionModel CtrlModel CtrlSpec RestSpec GcodeModel GcodeSpec GText GWitness.
Import ListNotations.

Definition still3 (recs : list step) : bool :=
  ((net_pulses 0 recs =? 0) && (net_pulses 1 recs =? 0) && (net_pulses 2 recs =? 0))%Z.
Definition zl_eqb (a b : list Z) : bool := if list_eq_dec Z.eq_dec a b then true else false.
Definition is_stopped (s : motionState) : bool := match s with ms_stopped => true | _ => false end.
Lemma is_stopped_eq s : is_stopped s = true -> s = ms_stopped.
Proof. destruct s; (reflexivity || discriminate). Qed.
Lemma zl_eq a b : zl_eqb a b = true -> a = b.
Proof. unfold zl_eqb. destruct (list_eq_dec Z.eq_dec a b); [auto|discriminate]. Qed.
Lemma still3_eq recs : still3 recs = true -> forall a, (a < 3)%N -> net_pulses a recs = 0%Z.
Proof.
  unfold still3. intro H. apply andb_prop in H. destruct H as [H P2]. apply andb_prop in H. destruct H as [P0 P1].
  apply Z.eqb_eq in P0, P1, P2. intros a Ha. assert (a = 0 \/ a = 1 \/ a = 2)%N as [->|[->| ->]] by lia; assumption.
Qed.
Section Session.
Context {D F G : Type} (A : arith D F) (M : machine F) (r1 r2 : res (G * smotion D)) (c0 : ctrl F).
Definition session_check : bool :=
  match r1, r2 with
  | Ok (_, m1), Ok (_, m2) =>
      match c_run A M c0 [OAppend m1; OStart; OStop; OCalc] with
      | Ok (c, r) =>
          match c_run A M c [OFlush; OAppend m2; OStart; OCalc; OCalc] with
          | Ok (c', r') => is_stopped (c_state c)
              && zl_eqb (c_pos c) [0; 0; 0]%Z && zl_eqb (c_pos c') [750; 0; 0]%Z && still3 (r ++ r') && (time_of r' =? 750)%N
          | UB => false end
      | UB => false end
  | _, _ => false
  end.
Lemma session_spec : session_check = true ->
  exists k1 m1 k2 m2 c recs c' recs',
    r1 = Ok (k1, m1) /\ r2 = Ok (k2, m2) /\
    c_run A M c0 [OAppend m1; OStart; OStop; OCalc] = Ok (c, recs) /\
    c_state c = ms_stopped /\ c_pos c = [0; 0; 0]%Z /\
    c_run A M c [OFlush; OAppend m2; OStart; OCalc; OCalc] = Ok (c', recs') /\
    time_of recs' = 750%N /\ c_pos c' = [750; 0; 0]%Z /\ (forall a, (a < 3)%N -> net_pulses a (recs ++ recs') = 0%Z).
Proof.
  unfold session_check. intro H. destruct r1 as [[k1 m1]|]; [|discriminate]. destruct r2 as [[k2 m2]|]; [|discriminate].
  destruct (c_run A M c0 _) as [[c recs]|] eqn:E1; [|discriminate].
  destruct (c_run A M c _) as [[c' recs']|] eqn:E2; [|discriminate].
  apply andb_prop in H. destruct H as [H P5]. apply andb_prop in H. destruct H as [H P4].
  apply andb_prop in H. destruct H as [H P3]. apply andb_prop in H. destruct H as [P1 P2].
  exists k1, m1, k2, m2, c, recs, c', recs'.
  split; [reflexivity|]. split; [reflexivity|]. split; [exact E1|].
  split; [exact (is_stopped_eq _ P1)|]. split; [exact (zl_eq _ _ P2)|].
  split; [exact E2|]. split; [exact (proj1 (N.eqb_eq _ _) P5)|].
  split; [exact (zl_eq _ _ P3)|exact (still3_eq _ P4)].
Qed.
End Session.
Lemma session_true X : session_check (sf_arith X) (cnc3axis (sf_arith X)) (run X ["G1 X10 F600"]%string) (run X ["G1 X10 F600"; "G1 X20"]%string)
  (c_init (sf_arith X) 375 (tickWidth (sf_arith X))) = true.
Proof. vm_compute. reflexivity. Qed.
Lemma flush_jumps : forall X, let A := sf_arith X in let M := cnc3axis A in
  exists k1 m1 k2 m2 c recs c' recs',
    run X ["G1 X10 F600"]%string = Ok (k1, m1) /\ run X ["G1 X10 F600"; "G1 X20"]%string = Ok (k2, m2) /\
    c_run A M (c_init A 375 (tickWidth A)) [OAppend m1; OStart; OStop; OCalc] = Ok (c, recs) /\
    c_state c = ms_stopped /\ c_pos c = [0; 0; 0]%Z /\
    c_run A M c [OFlush; OAppend m2; OStart; OCalc; OCalc] = Ok (c', recs') /\
    time_of recs' = 750%N /\ c_pos c' = [750; 0; 0]%Z /\ (forall a, (a < 3)%N -> net_pulses a (recs ++ recs') = 0%Z).
Proof. intros X A M. exact (session_spec A M _ _ _ (session_true X)). Qed.
