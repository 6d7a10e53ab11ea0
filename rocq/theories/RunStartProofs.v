(** Whole runs: appending and starting. *)
Require Import List Arith NArith ZArith Bool Reals Lra Lia ZifyBool ZifyNat ZifyN.
From Verif Require Import Base BaseProofs EventModel StepModel StepSpec Num NumR MotionModel CtrlModel CtrlSpec CtrlProofs CtrlQueueProofs.
From Verif Require Import CtrlRSpec CtrlTrackProofs CtrlTimeProofs ProfileSpec GeomSpec GeomProofs PlanProofs RunSpec RunLegProofs RunTickProofs RunPlanProofs.
Import ListNotations.
Open Scope R_scope.

Section Start.
Variables (M : machine xr) (r : rmach) (w fo : R).
Notation A := x_arith.
Hypothesis MI : machine_is M r.
Hypothesis FO : 0 < fo.
Hypothesis W : 0 < w.

Definition idx (c : ctrl xr) (j : nat) : N := ((c_head c + N.of_nat j) mod 32)%N.
Definition q_at (c : ctrl xr) (j : nat) : motion xr := item A c (idx c j).
Definition dq : mp := (sm_default A, mkPath 0 (fun _ => 0) (fun _ => 0) None).

Lemma set_at (c : ctrl xr) i j o : wfq c -> (i < 32)%nat -> (j < 32)%nat ->
  q_at (c_set_item c (idx c j) o) i = if (i =? j)%nat then o else q_at c i.
Proof.
  intros (H1 & H2 & H3) Hi Hj. unfold q_at, item, idx. cbn [c_set_item c_with_items c_items c_head].
  destruct (Nat.eqb_spec i j) as [->|NE].
  - apply rget_rset_eq. rewrite H1. pose proof (N.mod_lt (c_head c + N.of_nat j) 32). lia.
  - apply rget_rset_neq. apply ring_index_neq; lia.
Qed.
Lemma set_wf (c : ctrl xr) i o : wfq c -> wfq (c_set_item c i o).
Proof. intros (H1 & H2 & H3). unfold wfq. cbn [c_set_item c_with_items c_items c_head c_level]. rewrite rset_length. auto. Qed.
Lemma idx_eq (c : ctrl xr) j : wfq c -> (j <= 32)%nat -> (add32 (c_head c) (N.of_nat j) mod mb_length)%N = idx c j.
Proof. intros (H1 & H2 & H3) Hj. unfold add32, idx, mb_length. rewrite w32_small; auto. unfold two32; lia. Qed.

Lemma at_queue (Q : motion xr -> mp -> Prop) (c : ctrl xr) qs : c_level c = N.of_nat (length qs) ->
  (Forall2 Q (queue A c) qs <-> forall j, (j < length qs)%nat -> Q (q_at c j) (nth j qs dq)).
Proof.
  intro L. unfold queue, contents, q_at, idx, item. rewrite L, Nat2N.id. change mb_length with 32%N.
  set (g := fun i => rget (mo_zero A) (c_items c) ((c_head c + N.of_nat i) mod 32)).
  assert (K : forall n k (l : list mp), length l = n ->
     (Forall2 Q (map g (seq k n)) l <-> forall j, (j < n)%nat -> Q (g (k + j)%nat) (nth j l dq))).
  { clear. induction n; intros k l EL.
    - destruct l; [|discriminate]. cbn. split; [lia|constructor].
    - destruct l as [|x l]; [discriminate|]. cbn [seq map]. split; intro H.
      + inversion H as [|? ? ? ? H1 H2]; subst. rewrite (IHn (S k) l) in H2 by (cbn in EL; lia). intros [|j] Hj.
        * rewrite Nat.add_0_r. exact H1.
        * cbn [nth]. replace (k + S j)%nat with (S k + j)%nat by lia. apply H2. lia.
      + constructor. * specialize (H 0%nat ltac:(lia)). rewrite Nat.add_0_r in H. exact H.
        * apply (IHn (S k) l). { cbn in EL; lia. } intros j Hj. specialize (H (S j) ltac:(lia)).
          replace (S k + j)%nat with (k + S j)%nat by lia. exact H. }
  rewrite (K (length qs) 0%nat qs eq_refl). reflexivity.
Qed.

Definition rdy (st : motionStrategy) := ready M r fo st.
Definition any (o : motion xr) (q : mp) : Prop := exists st, rdy st o q.

Record planning (c : ctrl xr) (qs : list mp) : Prop := {
  pl_wf : wfq c;
  pl_level : c_level c = N.of_nat (length qs);
  pl_state : c_state c = ms_running;
  pl_time : st_time (c_st c) = XF 0;
  pl_fo : c_fo c = XF fo;
  pl_any : forall j, (j < length qs)%nat -> any (q_at c j) (nth j qs dq) }.

Lemma pair_plan (c : ctrl xr) qs j : Forall (exec r) qs -> planning c qs -> (S j < length qs)%nat ->
  let c' := c_optimizePair A M c (N.of_nat j) in
  planning c' qs /\ rdy maximizeSpeed (q_at c' j) (nth j qs dq) /\ rdy maximizeSpeed (q_at c' (S j)) (nth (S j) qs dq) /\
  (forall i, (i < length qs)%nat -> i <> j -> i <> S j -> q_at c' i = q_at c i).
Proof.
  intros EX [WF LV STT TM FOE AN] Hj. cbv zeta.
  assert (L32 : (length qs <= 32)%nat) by (destruct WF as (_ & _ & H); lia).
  assert (EXn : forall i, (i < length qs)%nat -> exec r (nth i qs dq)) by (intros; apply Forall_forall with (x := nth i qs dq) in EX; auto; apply nth_In; auto).
  assert (HS : c_strategy c = maximizeSpeed) by (unfold c_strategy; rewrite STT; reflexivity).
  destruct (AN j ltac:(lia)) as (s1 & R1). destruct (AN (S j) Hj) as (s2 & R2).
  unfold c_optimizePair. rewrite idx_eq by (auto; lia). replace (N.of_nat j + 1)%N with (N.of_nat (S j)) by lia. rewrite idx_eq by (auto; lia).
  change (item A c (idx c j)) with (q_at c j). rewrite (ready_vEnd M r fo s1 _ _ (EXn j ltac:(lia)) R1).
  set (c1 := c_set_item c (idx c j) (q_at c j)).
  assert (WF1 : wfq c1) by (apply set_wf; auto).
  assert (I1 : forall i, (i < 32)%nat -> q_at c1 i = q_at c i).
  { intros i Hi. unfold c1. rewrite set_at by (auto; lia). destruct (Nat.eqb_spec i j); subst; auto. }
  change (item A c1 (idx c j)) with (q_at c1 j). rewrite (I1 j) by lia.
  change (st_time (c_st c1)) with (st_time (c_st c)). rewrite TM, HS, FOE.
  assert (ID : forall d i, c_head d = c_head c -> idx d i = idx c i) by (intros d i E; unfold idx; rewrite E; auto).
  set (c2 := if (N.of_nat j =? 0)%N then _ else _).
  assert (C2 : exists o1, c2 = c_set_item c1 (idx c1 j) o1 /\ rdy maximizeSpeed o1 (nth j qs dq)).
  { unfold c2. rewrite (ID c1 j) by reflexivity. destruct (N.of_nat j =? 0)%N; eexists; (split; [reflexivity|]).
    - eapply ready_optimize; eauto; [apply EXn; lia|]. eapply ready_optimize_at; eauto; apply EXn; lia.
    - eapply ready_optimize; eauto; apply EXn; lia. }
  destruct C2 as (o1 & E2 & RD1). rewrite E2. clear c2 E2.
  set (c2 := c_set_item c1 (idx c1 j) o1). assert (WF2 : wfq c2) by (apply set_wf; auto).
  assert (I2 : forall i, (i < 32)%nat -> q_at c2 i = if (i =? j)%nat then o1 else q_at c i).
  { intros i Hi. unfold c2. rewrite set_at by (auto; lia). destruct (i =? j)%nat; auto. }
  change (item A c2 (idx c (S j))) with (q_at c2 (S j)). rewrite (I2 (S j)) by lia.
  destruct (Nat.eqb_spec (S j) j) as [|_]; [lia|]. rewrite (ready_vStart M r fo s2 _ _ (EXn (S j) Hj) R2).
  set (c3 := c_set_item c2 (idx c (S j)) (q_at c (S j))). assert (WF3 : wfq c3) by (apply set_wf; auto).
  assert (I3 : forall i, (i < 32)%nat -> q_at c3 i = if (i =? j)%nat then o1 else q_at c i).
  { intros i Hi. unfold c3. rewrite <- (ID c2 (S j)) by reflexivity. rewrite set_at by (auto; lia).
    destruct (Nat.eqb_spec i (S j)) as [->|]; auto. destruct (Nat.eqb_spec (S j) j); [lia|auto]. }
  change (item A c3 (idx c (S j))) with (q_at c3 (S j)). rewrite (I3 (S j)) by lia. destruct (Nat.eqb_spec (S j) j) as [|_]; [lia|].
  set (o2 := mo_optimize A M (q_at c (S j)) (XF fo) maximizeSpeed).
  assert (RD2 : rdy maximizeSpeed o2 (nth (S j) qs dq)) by (unfold o2; eapply ready_optimize; eauto).
  set (c4 := c_set_item c3 (idx c (S j)) o2). assert (WF4 : wfq c4) by (apply set_wf; auto).
  assert (I4 : forall i, (i < 32)%nat -> q_at c4 i = if (i =? S j)%nat then o2 else if (i =? j)%nat then o1 else q_at c i).
  { intros i Hi. unfold c4. rewrite <- (ID c3 (S j)) by reflexivity. rewrite set_at by (auto; lia). rewrite I3 by auto. auto. }
  split; [|split; [|split]].
  - constructor; auto. intros i Hi. rewrite I4 by lia. destruct (Nat.eqb_spec i (S j)) as [->|]; [exists maximizeSpeed; auto|].
    destruct (Nat.eqb_spec i j) as [->|]; [exists maximizeSpeed; auto|]. auto.
  - rewrite I4 by lia. destruct (Nat.eqb_spec j (S j)); [lia|]. rewrite Nat.eqb_refl. auto.
  - rewrite I4 by lia. rewrite Nat.eqb_refl. auto.
  - intros i Hi N1 N2. rewrite I4 by lia. destruct (Nat.eqb_spec i (S j)); [lia|]. destruct (Nat.eqb_spec i j); [lia|auto].
Qed.

Lemma fold_plan qs : Forall (exec r) qs -> forall js (c : ctrl xr), planning c qs -> (forall j, In j js -> (S j < length qs)%nat) ->
  let c' := fold_left (c_optimizePair A M) (map N.of_nat js) c in
  planning c' qs /\ forall i, (i < length qs)%nat -> (In i js \/ (exists j, In j js /\ i = S j) \/ rdy maximizeSpeed (q_at c i) (nth i qs dq)) ->
    rdy maximizeSpeed (q_at c' i) (nth i qs dq).
Proof.
  intros EX. induction js as [|j js IH]; intros c PL HJ; cbv zeta; cbn [map fold_left].
  - split; auto. intros i Hi [[]|[(j & [] & _)|H]]; auto.
  - destruct (pair_plan c qs j EX PL (HJ j (or_introl eq_refl))) as (PL1 & A1 & A2 & A3).
    destruct (IH _ PL1) as [P2 Q2]. { intros; apply HJ; right; auto. }
    split; auto. intros i Hi H. apply Q2; auto.
    destruct (Nat.eq_dec i j) as [->|N1]; [right; right; auto|]. destruct (Nat.eq_dec i (S j)) as [->|N2]; [right; right; auto|].
    destruct H as [[H|H]|[(k & [H|H] & E)|H]]; try congruence; auto.
    + right. left. exists k; auto.
    + right. right. rewrite A3 by auto. auto.
Qed.

Lemma optimize_plan (c : ctrl xr) qs : Forall (exec r) qs -> planning c qs -> qs <> [] ->
  Forall2 (rdy maximizeSpeed) (queue A (c_optimize A M c)) qs /\ wfq (c_optimize A M c).
Proof.
  intros EX PL NE. pose proof PL as [WF LV STT TM FOE AN].
  destruct (optimize_keep A M c) as (_ & _ & _ & _ & _ & _ & KL & _).
  assert (WF' : planning (c_optimize A M c) qs /\ forall i, (i < length qs)%nat -> rdy maximizeSpeed (q_at (c_optimize A M c) i) (nth i qs dq)).
  2:{ destruct WF' as [PL' R]. split; [|apply PL']. apply at_queue; [apply PL'|auto]. }
  unfold c_optimize. rewrite LV. destruct qs as [|q [|q2 qs]]; [congruence| |].
  - change (N.of_nat (length [q]) =? 0)%N with false. change (N.of_nat (length [q]) =? 1)%N with true. cbv iota.
    assert (HS : c_strategy c = maximizeSpeed) by (unfold c_strategy; rewrite STT; reflexivity).
    assert (HI : c_head c = idx c 0). { unfold idx. rewrite N.add_0_r, N.mod_small; auto. apply WF. }
    destruct (AN 0%nat ltac:(cbn; lia)) as (s & R0). inversion EX as [|? ? EQ _]; subst.
    unfold c_getHead. rewrite HI. change (item A c (idx c 0)) with (q_at c 0). rewrite FOE, TM, HS.
    set (o := mo_optimize_at A M (q_at c 0) (XF fo) maximizeSpeed (XF 0)).
    assert (RD : rdy maximizeSpeed o q) by (unfold o; eapply ready_optimize_at; eauto).
    assert (Q0 : q_at (c_set_item c (idx c 0) o) 0 = o) by (rewrite set_at by (auto; lia); reflexivity).
    split.
    + constructor; auto. * apply set_wf; auto. * intros [|j] Hj; [|cbn in Hj; lia]. rewrite Q0. exists maximizeSpeed. auto.
    + intros [|j] Hj; [|cbn in Hj; lia]. rewrite Q0. auto.
  - set (qs0 := q :: q2 :: qs) in *. assert (HL : (2 <= length qs0 <= 32)%nat) by (split; [cbn; lia|destruct WF as (_ & _ & ?); lia]).
    destruct (N.eqb_spec (N.of_nat (length qs0)) 0); [lia|]. destruct (N.eqb_spec (N.of_nat (length qs0)) 1); [lia|].
    unfold junctions. rewrite LV. destruct (N.leb_spec 2147483648 (N.of_nat (length qs0))); [lia|].
    unfold c_strategy. rewrite STT.
    replace (N.to_nat (N.of_nat (length qs0) - 1)) with (length qs0 - 1)%nat by lia. rewrite <- map_rev.
    destruct (fold_plan qs0 EX (rev (seq 0 (length qs0 - 1))) c PL) as [P1 P2].
    { intros j Hj. apply in_rev in Hj. apply in_seq in Hj. lia. }
    split; auto. intros i Hi. apply P2; auto. destruct i as [|i].
    + left. apply in_rev. rewrite rev_involutive. apply in_seq. lia.
    + right. left. exists i. split; auto. apply in_rev. rewrite rev_involutive. apply in_seq. lia.
Qed.

(** *** A stopped controller with motions queued *)
Record loaded (c : ctrl xr) (qs : list mp) : Prop := {
  ld_state : c_state c = ms_stopped;
  ld_wf : wfq c;
  ld_level : c_level c = N.of_nat (length qs);
  ld_clock : c_st c = mkST (XF 0) (XF 0) 0 (XF w);
  ld_fo : c_fo c = XF fo;
  ld_pos : length (c_pos c) = 3%nat;
  ld_ready : Forall2 (rdy minimizeSpeed) (queue A c) qs }.

Lemma rest_loaded c : at_rest c w fo -> loaded c [].
Proof.
  intros [H1 H2 H3 H4 H5 H6 H7]. constructor; auto.
  - unfold wfq. rewrite H2. repeat split; auto. lia.
  - unfold queue. rewrite H2. constructor.
Qed.

Lemma push_queue (c : ctrl xr) m : wfq c -> (c_level c < 32)%N ->
  wfq (c_append A M c m) /\ c_level (c_append A M c m) = (c_level c + 1)%N /\
  c_events (c_append A M c m) = c_events c /\ c_fo (c_append A M c m) = c_fo c /\
  exists o, queue A (c_append A M c m) = queue A c ++ [mo_set A M o m (c_fo c) (c_strategy c)].
Proof.
  intros (H1 & H2 & H3) HL. unfold c_append, c_isFull, mb_length. destruct (N.leb_spec 32 (c_level c)); [lia|]. cbn [negb].
  cbn [c_push]. cbv beta iota zeta.
  assert (E1 : add32 (c_level c) 1 = (c_level c + 1)%N) by (unfold add32; apply w32_small; unfold two32; lia).
  assert (E2 : add32 (c_head c) (c_level c) = (c_head c + c_level c)%N) by (unfold add32; apply w32_small; unfold two32; lia).
  unfold c_push. rewrite E1, E2. cbv beta iota zeta.
  match goal with |- context [mo_set A M ?o m _ _] => set (o0 := o) end.
  unfold wfq, queue. cbn [c_set_item c_with_items c_with_queue c_items c_head c_level c_events c_fo]. rewrite rset_length.
  split; [repeat split; auto; lia|]. split; auto. split; auto. split; auto. exists o0. unfold mb_length. rewrite contents_push by lia. reflexivity.
Qed.

Lemma append_loaded c qs q : loaded c qs -> exec r q -> (length qs < 32)%nat ->
  loaded (c_append A M c (fst q)) (qs ++ [q]) /\ c_pos (c_append A M c (fst q)) = c_pos c /\
  c_sig (c_append A M c (fst q)) = c_sig c /\ c_events (c_append A M c (fst q)) = c_events c.
Proof.
  intros [H1 H2 H3 H4 H5 H6 H7] EX HL. destruct (push_queue c (fst q) H2 ltac:(lia)) as (P1 & P2 & P3 & P4 & o & P5).
  destruct (append_keep A M c (fst q)) as (K1 & K2 & K3 & K4).
  split; [|auto]. constructor; auto; try congruence.
  - rewrite P2, H3, app_length. cbn [length]. lia.
  - rewrite P5. apply Forall2_app; auto. constructor; [|constructor]. rewrite H5. unfold c_strategy. rewrite H1. apply set_ready; auto.
Qed.

Lemma appends_loaded qs : forall c done, loaded c done -> Forall (exec r) qs -> (length done + length qs <= 32)%nat ->
  exists c', c_run A M c (map (fun q => OAppend (fst q)) qs) = Ok (c', []) /\ loaded c' (done ++ qs) /\
    c_pos c' = c_pos c /\ c_sig c' = c_sig c /\ c_events c' = c_events c.
Proof.
  induction qs as [|q qs IH]; intros c done LD EX HL; cbn [map c_run].
  - exists c. rewrite app_nil_r. auto.
  - inversion EX as [|? ? E1 E2]; subst. cbn [length] in HL. destruct (append_loaded c done q LD E1 ltac:(lia)) as (L1 & P1 & S1 & V1).
    destruct (IH _ (done ++ [q]) L1 E2) as (c' & R & L2 & P2 & S2 & V2). { rewrite app_length. cbn [length]. lia. }
    exists c'. cbn [c_step rbind]. rewrite R. cbn [rbind app]. split; auto. rewrite <- app_assoc in L2. split; auto. split; congruence || auto.
    split; congruence.
Qed.

(** Legs for planned items. *)
Lemma ready_legs qs : Forall (exec r) qs -> forall os, Forall2 (rdy maximizeSpeed) os qs ->
  exists legs, map lg_path legs = map snd qs /\ Forall2 (fun q l => leg_ok r (sm_vFeed (fst q)) fo l) qs legs /\ Forall2 (runs 0) os legs.
Proof.
  induction 1 as [|q qs EX _ IH]; intros os F2; inversion F2 as [|o ? os' ? R0 F2']; subst.
  - exists []. auto.
  - destruct (ready_runs M r fo o q EX R0) as (l & P1 & P2 & P3). destruct (IH os' F2') as (legs & Q1 & Q2 & Q3).
    exists (l :: legs). cbn [map]. rewrite P1, Q1. auto.
Qed.

Lemma legs_moves qs legs : Forall2 (fun (q : mp) l => leg_ok r (sm_vFeed (fst q)) fo l) qs legs -> Forall (leg_moves r) legs.
Proof. induction 1; constructor; auto. eapply leg_ok_moves; eauto. Qed.
Lemma legs_ranged qs legs : Forall (exec r) qs -> map lg_path legs = map snd qs -> Forall (fun l => ranged r (lg_path l)) legs.
Proof.
  intro H. revert legs. induction H as [|q qs EX _ IH]; intros [|l legs] E; try discriminate; constructor.
  - inversion E as [[E1 E2]]. rewrite E1. destruct EX as (_ & _ & _ & _ & RG). exact RG.
  - apply IH. inversion E; auto.
Qed.

Definition bri (q : mp) : Prop := brief r w fo (fst q) (snd q).
Lemma legs_short qs legs : Forall bri qs -> Forall2 (fun (q : mp) l => leg_ok r (sm_vFeed (fst q)) fo l) qs legs -> map lg_path legs = map snd qs ->
  Forall (short w) legs.
Proof.
  intro H. revert legs. induction H as [|q qs EX _ IH]; intros [|l legs] F E; try discriminate; constructor; inversion F; inversion E; subst; auto.
Qed.

Variable N : nat.
Lemma start_running c qs x0 n : loaded c qs -> Forall (exec r) qs -> Forall bri qs -> qs <> [] -> chained x0 (map snd qs) ->
  (forall i, (i < 3)%nat -> Rabs (rm_k r i * x0 i - pos_of c i) <= 55/100 + INR n * creep r w i) ->
  let c' := c_start A M c in
  c_pos c' = c_pos c /\ c_sig c' = c_sig c /\ c_events c' = c_events c ++ [motionStarted] /\ st_index (c_st c') = 0%N /\
  exists legs, map lg_path legs = map snd qs /\ Forall2 (fun q l => leg_ok r (sm_vFeed (fst q)) fo l) qs legs /\
    running r w fo N c' x0 legs 0 n (fun _ => None).
Proof.
  intros [H1 H2 H3 H4 H5 H6 H7] EX BR NE CH CL. cbv zeta. unfold c_start, c_isEmpty.
  destruct (N.eqb_spec (c_level c) 0) as [E|_]. { destruct qs; [congruence|]. rewrite H3 in E. cbn in E. lia. }
  cbn [negb]. set (c1 := c_with_state (c_emit c [motionStarted]) ms_running).
  assert (PL : planning c1 qs).
  { constructor; auto. - unfold c1. cbn. rewrite H4. reflexivity.
    - intros j Hj. exists minimizeSpeed. apply (proj1 (at_queue (rdy minimizeSpeed) c qs H3) H7 j Hj). }
  destruct (optimize_plan c1 qs EX PL NE) as [F2 WF]. destruct (optimize_keep A M c1) as (K1 & K2 & K3 & K4 & K5 & K6 & K7 & K8 & _).
  set (c' := c_optimize A M c1) in *. rewrite K1, K2, K3, K4. split; auto. split; auto. split; auto. split. { unfold c1. cbn. rewrite H4. reflexivity. }
  destruct (ready_legs qs EX _ F2) as (legs & Q1 & Q2 & Q3). exists legs. split; auto. split; auto.
  pose proof (legs_moves _ _ Q2) as LM.
  assert (H0 : head_T legs 0). { destruct LM as [|l ls L0 _]; cbn; auto. pose proof (lm_T _ _ L0). lra. }
  assert (NW : forall i, (i < 3)%nat -> now x0 legs 0 i = x0 i).
  { intros i Hi. rewrite <- Q1 in CH. destruct LM as [|l ls L0 _]; cbn [now]; auto. rewrite (lm_s0 _ _ L0). cbn [map chained] in CH. apply CH; auto. }
  split; [constructor; auto; try lra|].
  - unfold clock. rewrite K4. unfold c1. cbn [c_with_state c_emit c_st]. rewrite H4. cbn [st_width st_offset st_index st_time].
    split; auto. exists 0. split; auto. split; [cbn; lra|auto].
  - intros E. rewrite E in Q1. destruct qs; [apply NE; reflexivity|discriminate Q1].
  - exists 0. split; [lra|]. apply queued_fresh. auto.
  - rewrite Q1. auto.
  - eapply legs_ranged; eauto.
  - rewrite K8. exact H5.
  - rewrite K2. exact H6.
  - intros i Hi. rewrite NW by auto. unfold pos_of. rewrite K2. specialize (CL i Hi). unfold pos_of in CL.
    change (c_pos c1) with (c_pos c). lra.
  - intros i d _ E. discriminate.
  - rewrite K4. unfold c1. cbn [c_with_state c_emit c_st]. rewrite H4. cbn. lra.
  - eapply legs_short; eauto.
Qed.

(** Appending while running. *)
Lemma append_running c x0 legs t n prev q : running r w fo N c x0 legs t n prev -> exec r q -> bri q -> (c_level c < 32)%N ->
  chained (end_of x0 (map lg_path legs)) [snd q] ->
  exists l, lg_path l = snd q /\ leg_ok r (sm_vFeed (fst q)) fo l /\
    running r w fo N (c_append A M c (fst q)) x0 (legs ++ [l]) t n prev /\
    c_pos (c_append A M c (fst q)) = c_pos c /\ c_sig (c_append A M c (fst q)) = c_sig c /\
    c_events (c_append A M c (fst q)) = c_events c /\ c_st (c_append A M c (fst q)) = c_st c.
Proof.
  intros [[R1 R2 R3 R4 R5 R6 (b & HB & R7) R8 R9 R10 R11 R12 R13 R14 R15] R16] EX BR HL CH.
  destruct (push_queue c (fst q) R2 HL) as (P1 & P2 & P3 & P4 & o & P5).
  destruct (append_keep A M c (fst q)) as (K1 & K2 & K3 & K4).
  assert (RD : rdy maximizeSpeed (mo_set A M o (fst q) (c_fo c) (c_strategy c)) q).
  { rewrite R11. unfold c_strategy. rewrite R1. apply set_ready; auto. }
  destruct (ready_runs M r fo _ q EX RD) as (l & L1 & L2 & L3). exists l. split; auto. split; auto.
  split; [|auto].
  assert (NW : now x0 (legs ++ [l]) t = now x0 legs t) by (destruct legs; [congruence|reflexivity]).
  split; [constructor; auto; try congruence|].
  - unfold clock. rewrite K3. exact R3.
  - destruct legs; [congruence|exact R5].
  - destruct legs; discriminate.
  - exists b. split; auto. rewrite P5. apply queued_app; auto.
  - rewrite map_app. cbn [map]. rewrite L1. clear - R8 CH. revert x0 R8 CH. induction legs as [|a legs IH]; intros x0 R8 CH; cbn [map app] in *; auto.
    destruct R8 as [R8 R9]. split; auto.
  - apply Forall_app. split; auto. constructor; auto. eapply leg_ok_moves; eauto.
  - apply Forall_app. split; auto. constructor; auto. rewrite L1. destruct EX as (_ & _ & _ & _ & RG). exact RG.
  - intros i Hi. rewrite NW. unfold pos_of. rewrite K2. apply R13; auto.
  - intros i d Hi E CA. rewrite NW. unfold pos_of. rewrite K2. apply R14; auto.
  - apply Forall_app. split; auto.
Qed.
End Start.
