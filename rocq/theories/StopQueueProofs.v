(** Stopping and resuming: planning the whole queue again. *)
Require Import List Arith NArith ZArith Bool Reals Lra Lia ZifyBool ZifyNat ZifyN.
From Verif Require Import Base BaseProofs EventModel StepModel StepSpec Num NumR MotionModel CtrlModel CtrlSpec CtrlProofs CtrlQueueProofs.
From Verif Require Import CtrlRSpec CtrlTrackProofs CtrlTimeProofs ProfileSpec GeomSpec GeomProofs PlanProofs RunSpec RunLegProofs RunTickProofs RunPlanProofs RunStartProofs StopSpec StopPlanProofs.
Import ListNotations.
Open Scope R_scope.

Section Replan.
Variables (M : machine xr) (r : rmach) (fo : R).
Notation A := x_arith.
Hypothesis MI : machine_is M r.
Hypothesis FO : 0 < fo.

(** One junction. *)
Lemma pair_at (c : ctrl xr) j : wfq c -> (S j < 32)%nat ->
  let c' := c_optimizePair A M c (N.of_nat j) in
  let o1 := with_right_vEnd (q_at c j) (nofZ (aF A) 0) in
  wfq c' /\ c_level c' = c_level c /\ c_state c' = c_state c /\ c_st c' = c_st c /\ c_fo c' = c_fo c /\
  forall i, (i < 32)%nat -> q_at c' i =
    if (i =? S j)%nat then mo_optimize A M (with_left_vStart (q_at c (S j)) (nofZ (aF A) 0)) (c_fo c) (c_strategy c)
    else if (i =? j)%nat then
      (if (j =? 0)%nat then mo_optimize A M (mo_optimize_at A M o1 (c_fo c) (c_strategy c) (st_time (c_st c))) (c_fo c) (c_strategy c)
       else mo_optimize A M o1 (c_fo c) (c_strategy c))
    else q_at c i.
Proof.
  intros WF Hj. cbv zeta. unfold c_optimizePair. rewrite idx_eq by (auto; lia). replace (N.of_nat j + 1)%N with (N.of_nat (S j)) by lia.
  rewrite idx_eq by (auto; lia). change (item A c (idx c j)) with (q_at c j).
  set (o1 := with_right_vEnd (q_at c j) (nofZ (aF A) 0)). set (c1 := c_set_item c (idx c j) o1).
  assert (WF1 : wfq c1) by (apply set_wf; auto).
  change (item A c1 (idx c j)) with (q_at c1 j).
  assert (I1 : forall i, (i < 32)%nat -> q_at c1 i = if (i =? j)%nat then o1 else q_at c i) by (intros; unfold c1; rewrite set_at by (auto; lia); auto).
  rewrite (I1 j) by lia. rewrite Nat.eqb_refl. change (st_time (c_st c1)) with (st_time (c_st c)).
  set (o2 := if (j =? 0)%nat then mo_optimize A M (mo_optimize_at A M o1 (c_fo c) (c_strategy c) (st_time (c_st c))) (c_fo c) (c_strategy c)
             else mo_optimize A M o1 (c_fo c) (c_strategy c)).
  set (c2 := if (N.of_nat j =? 0)%N then _ else _).
  assert (E2 : c2 = c_set_item c1 (idx c1 j) o2).
  { unfold c2, o2. destruct (N.eqb_spec (N.of_nat j) 0), (Nat.eqb_spec j 0); try lia; reflexivity. }
  rewrite E2. clear c2 E2. set (c2 := c_set_item c1 (idx c1 j) o2). assert (WF2 : wfq c2) by (apply set_wf; auto).
  assert (I2 : forall i, (i < 32)%nat -> q_at c2 i = if (i =? j)%nat then o2 else q_at c i).
  { intros i Hi. unfold c2. rewrite set_at by (auto; lia). rewrite I1 by auto. destruct (i =? j)%nat; auto. }
  change (item A c2 (idx c (S j))) with (q_at c2 (S j)). rewrite (I2 (S j)) by lia. destruct (Nat.eqb_spec (S j) j) as [|_]; [lia|].
  set (o3 := with_left_vStart (q_at c (S j)) (nofZ (aF A) 0)).
  set (c3 := c_set_item c2 (idx c (S j)) o3). assert (WF3 : wfq c3) by (apply set_wf; auto).
  assert (I3 : forall i, (i < 32)%nat -> q_at c3 i = if (i =? S j)%nat then o3 else if (i =? j)%nat then o2 else q_at c i).
  { intros i Hi. unfold c3. change (idx c (S j)) with (idx c2 (S j)). rewrite set_at by (auto; lia). rewrite I2 by auto. auto. }
  change (item A c3 (idx c (S j))) with (q_at c3 (S j)). rewrite (I3 (S j)) by lia. rewrite Nat.eqb_refl.
  split; [apply set_wf; auto|]. repeat (split; [reflexivity|]).
  intros i Hi. change (idx c (S j)) with (idx c3 (S j)). rewrite set_at by (auto; lia). rewrite I3 by auto. destruct (i =? S j)%nat; auto.
Qed.

Lemma mo_again h f st st' : is_move (mo_type h) = true -> mo_optimize A M (mo_optimize A M h f st) f st' = mo_optimize A M h f st'.
Proof.
  intro E. unfold mo_optimize. rewrite E. cbn [mo_type mo_traj mo_prof mo_per]. rewrite E.
  change (aF A) with x_num. rewrite optimize_again. reflexivity.
Qed.

(** A queue about to be planned again: the first item [h], the others [any]. *)
Record again (c : ctrl xr) (h : motion xr) (qs : list mp) (st : motionStrategy) (t : R) : Prop := {
  ag_wf : wfq c;
  ag_level : c_level c = N.of_nat (S (length qs));
  ag_st : c_strategy c = st;
  ag_time : st_time (c_st c) = XF t;
  ag_fo : c_fo c = XF fo;
  ag_head : q_at c 0 = h;
  ag_any : forall j, (j < length qs)%nat -> any M r fo (q_at c (S j)) (nth j qs dq) }.

Section Fold.
Variables (h : motion xr) (qs : list mp) (st : motionStrategy) (t : R).
Hypothesis EX : Forall (exec r) qs.
Hypothesis HE : with_right_vEnd h (nofZ (aF A) 0) = h.
Hypothesis HM : is_move (mo_type h) = true.
Notation h' := (mo_optimize_at A M h (XF fo) st (XF t)).
Lemma again_exec j : (j < length qs)%nat -> exec r (nth j qs dq).
Proof. intros. apply Forall_forall with (x := nth j qs dq) in EX; auto. apply nth_In; auto. Qed.

Lemma pair_again c h0 j : again c h0 qs st t -> (j = 0%nat -> h0 = h) -> (j < length qs)%nat ->
  let c' := c_optimizePair A M c (N.of_nat j) in
  again c' (if (j =? 0)%nat then h' else h0) qs st t /\
  forall i, (i < length qs)%nat -> (S i = j \/ i = j \/ rdy M r fo st (q_at c (S i)) (nth i qs dq)) -> rdy M r fo st (q_at c' (S i)) (nth i qs dq).
Proof.
  intros [WF LV SS TM FE QH AN] H0 Hj. cbv zeta. assert (L32 : (S (length qs) <= 32)%nat) by (destruct WF as (_ & _ & H); lia).
  destruct (pair_at c j WF ltac:(lia)) as (W1 & W2 & W3 & W4 & W5 & Q). set (c' := c_optimizePair A M c (N.of_nat j)) in *.
  rewrite SS, TM, FE in Q.
  assert (ST' : c_strategy c' = st) by (unfold c_strategy in *; rewrite W3; auto).
  assert (K : forall i, (i < length qs)%nat -> (q_at c' (S i) = q_at c (S i) /\ S i <> j /\ i <> j) \/ rdy M r fo st (q_at c' (S i)) (nth i qs dq)).
  { intros i Hi. destruct (AN i Hi) as (s & R). pose proof (again_exec i Hi) as E. rewrite Q by lia.
    change (S i =? S j)%nat with (i =? j)%nat. destruct (Nat.eqb_spec i j) as [->|N1].
    - right. rewrite (ready_vStart M r fo s _ _ E R). eapply ready_optimize; eauto.
    - destruct (Nat.eqb_spec (S i) j) as [<-|N2]; [|left; auto].
      right. change (S i =? 0)%nat with false. cbv iota. rewrite (ready_vEnd M r fo s _ _ E R). eapply ready_optimize; eauto. }
  split.
  - constructor; auto; try congruence.
    + rewrite Q by lia. change (0 =? S j)%nat with false. cbv iota. destruct (Nat.eqb_spec 0 j) as [<-|N0].
      * cbv iota. change (0 =? 0)%nat with true. cbv iota. rewrite QH, (H0 eq_refl), HE. unfold mo_optimize_at at 1. rewrite mo_again; [reflexivity|exact HM].
      * destruct (Nat.eqb_spec j 0); [lia|auto].
    + intros i Hi. destruct (K i Hi) as [[-> _]|R]; auto. exists st; auto.
  - intros i Hi D. destruct (K i Hi) as [(E & N1 & N2)|R]; auto. destruct D as [D|[D|D]]; congruence.
Qed.

Lemma fold_again js : forall c h0, again c h0 qs st t -> NoDup js -> (In 0%nat js -> h0 = h) -> (forall j, In j js -> (j < length qs)%nat) ->
  let c' := fold_left (c_optimizePair A M) (map N.of_nat js) c in
  again c' (if in_dec Nat.eq_dec 0%nat js then h' else h0) qs st t /\
  forall i, (i < length qs)%nat -> (In i js \/ rdy M r fo st (q_at c (S i)) (nth i qs dq)) -> rdy M r fo st (q_at c' (S i)) (nth i qs dq).
Proof.
  induction js as [|j js IH]; intros c h0 AG ND H0 HJ; cbv zeta; cbn [map fold_left].
  - destruct (in_dec Nat.eq_dec 0%nat []) as [[]|]. split; auto. intros i Hi [[]|H]; auto.
  - inversion ND as [|? ? NI ND']; subst.
    destruct (pair_again c h0 j AG ltac:(intros ->; apply H0; left; auto) (HJ j (or_introl eq_refl))) as [AG1 R1].
    destruct (IH _ _ AG1 ND') as [AG2 R2].
    + intro I. destruct (Nat.eqb_spec j 0) as [->|]; [contradiction|]. apply H0. right; auto.
    + intros; apply HJ; right; auto.
    + split.
      * destruct (in_dec Nat.eq_dec 0%nat js) as [I|I], (in_dec Nat.eq_dec 0%nat (j :: js)) as [I'|I']; auto.
        -- exfalso. apply I'. right; auto.
        -- destruct (Nat.eqb_spec j 0) as [->|]; auto. destruct I'; [congruence|contradiction].
        -- destruct (Nat.eqb_spec j 0) as [->|]; auto. exfalso. apply I'. left; auto.
      * intros i Hi D. apply R2; auto. destruct (Nat.eq_dec i j) as [->|NE]; [right; apply R1; auto|].
        destruct D as [[D|D]|D]; [congruence|left; auto|]. right. apply R1; auto.
Qed.

Lemma queue_at (c : ctrl xr) : queue A c = map (q_at c) (seq 0 (N.to_nat (c_level c))).
Proof. reflexivity. Qed.

Lemma optimize_again_queue c : again c h qs st t ->
  exists os, queue A (c_optimize A M c) = h' :: os /\ Forall2 (rdy M r fo st) os qs /\ wfq (c_optimize A M c).
Proof.
  intros AG. pose proof AG as [WF LV SS TM FE QH AN]. assert (L32 : (S (length qs) <= 32)%nat) by (destruct WF as (_ & _ & H); lia).
  assert (K : again (c_optimize A M c) h' qs st t /\ forall i, (i < length qs)%nat -> rdy M r fo st (q_at (c_optimize A M c) (S i)) (nth i qs dq)).
  { unfold c_optimize. rewrite LV. destruct (N.eqb_spec (N.of_nat (S (length qs))) 0); [lia|].
    destruct (N.eqb_spec (N.of_nat (S (length qs))) 1) as [E1|E1].
    - assert (EQ : length qs = 0%nat) by lia.
      assert (HI : c_head c = idx c 0). { unfold idx. rewrite N.add_0_r, N.mod_small; auto. apply WF. }
      unfold c_getHead. rewrite HI. change (item A c (idx c 0)) with (q_at c 0). rewrite QH, SS, TM, FE.
      split; [|intros; lia]. constructor; auto.
      + apply set_wf; auto.
      + rewrite set_at by (auto; lia). reflexivity.
      + intros; lia.
    - unfold junctions. rewrite LV, SS. destruct (N.leb_spec 2147483648 (N.of_nat (S (length qs)))); [lia|].
      replace (N.to_nat (N.of_nat (S (length qs)) - 1)) with (length qs) by lia.
      set (js := match st with minimizeSpeed => seq 0 (length qs) | maximizeSpeed => rev (seq 0 (length qs)) end).
      assert (EJ : match st with minimizeSpeed => map N.of_nat (seq 0 (length qs)) | maximizeSpeed => rev (map N.of_nat (seq 0 (length qs))) end = map N.of_nat js).
      { unfold js. destruct st; auto. symmetry. apply map_rev. }
      assert (EJ' : match st with maximizeSpeed => rev (map N.of_nat (seq 0 (length qs))) | minimizeSpeed => map N.of_nat (seq 0 (length qs)) end = map N.of_nat js).
      { rewrite <- EJ. destruct st; auto. }
      rewrite EJ'.
      assert (IJ : forall j, In j js <-> (j < length qs)%nat).
      { intro j. unfold js. destruct st; rewrite <- ?in_rev, in_seq; lia. }
      assert (ND : NoDup js). { unfold js. destruct st; [apply NoDup_rev|]; apply seq_NoDup. }
      destruct (fold_again js c h AG ND ltac:(auto) ltac:(intros; apply IJ; auto)) as [AG2 R2].
      destruct (in_dec Nat.eq_dec 0%nat js) as [I|I]; [|exfalso; apply I, IJ; lia].
      split; auto. intros i Hi. apply R2; auto. left. apply IJ. auto. }
  destruct K as [[K1 K2 _ _ _ K3 _] K4]. exists (map (fun j => q_at (c_optimize A M c) (S j)) (seq 0 (length qs))).
  split. { rewrite queue_at, K2, Nat2N.id. cbn [seq map]. rewrite K3. f_equal. rewrite <- seq_shift, map_map. reflexivity. }
  split; auto. clear - K4.
  assert (G : forall (l : list mp) k (g : nat -> motion xr), (forall i, (i < length l)%nat -> rdy M r fo st (g (k + i)%nat) (nth i l dq)) -> Forall2 (rdy M r fo st) (map g (seq k (length l))) l).
  { induction l as [|q l IH]; intros k g H; cbn [length seq map]; constructor.
    - specialize (H 0%nat ltac:(cbn; lia)). rewrite Nat.add_0_r in H. exact H.
    - apply IH. intros i Hi. specialize (H (S i) ltac:(cbn; lia)). replace (S k + i)%nat with (k + S i)%nat by lia. exact H. }
  apply (G qs 0%nat (fun j => q_at (c_optimize A M c) (S j))). auto.
Qed.
End Fold.

(** From the queue to its items. *)
Lemma again_queue c h os qs st t : wfq c -> queue A c = h :: os -> Forall2 (any M r fo) os qs -> c_strategy c = st -> st_time (c_st c) = XF t -> c_fo c = XF fo ->
  again c h qs st t.
Proof.
  intros WF Q F2 SS TM FE. assert (LV : c_level c = N.of_nat (S (length qs))).
  { assert (K : length (queue A c) = S (length qs)).
    { rewrite Q. cbn [length]. f_equal. clear - F2. induction F2; cbn [length]; auto. }
    unfold queue in K. rewrite contents_length in K. lia. }
  rewrite queue_at, LV, Nat2N.id in Q. cbn [seq map] in Q. injection Q as Q0 Q1. constructor; auto.
  intros j Hj. clear - Q1 F2 Hj. rewrite <- seq_shift, map_map in Q1.
  assert (G : forall (l : list mp) k (g : nat -> motion xr) os, map g (seq k (length l)) = os -> Forall2 (any M r fo) os l ->
     forall j, (j < length l)%nat -> any M r fo (g (k + j)%nat) (nth j l dq)).
  { induction l as [|q l IH]; intros k g os' E F j' Hj'; cbn [length] in *; [lia|]. cbn [seq map] in E. subst os'. inversion F; subst.
    destruct j' as [|j']; [rewrite Nat.add_0_r; auto|]. replace (k + S j')%nat with (S k + j')%nat by lia. eapply IH; eauto. lia. }
  exact (G qs 0%nat (fun j => q_at c (S j)) os Q1 F2 j Hj).
Qed.
End Replan.
