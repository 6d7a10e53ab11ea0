(** The ring of queued motions, for any arithmetic. *)
Require Import List Arith NArith ZArith Bool Lia ZifyBool ZifyNat ZifyN.
From Verif Require Import Base BaseProofs EventModel StepModel Num MotionModel CtrlModel CtrlSpec CtrlProofs CtrlQueueProofs.
Import ListNotations.

Section Ring.
Context {D F : Type} (A : arith D F) (M : machine F).

Definition ringok (c : ctrl F) : Prop := (length (c_items c) = 32%nat /\ c_head c < 32 /\ c_level c <= 32)%N.
Lemma ring_pop (c : ctrl F) : ringok c -> (0 < c_level c)%N ->
  queue A c = c_getHead A c :: queue A (c_pop c) /\ ringok (c_pop c) /\ c_level (c_pop c) = (c_level c - 1)%N.
Proof.
  intros (H1 & H2 & H3) HL.
  assert (EL : sub32 (c_level c) 1 = (c_level c - 1)%N).
  { unfold sub32, w32. replace (c_level c + two32 - 1)%N with ((c_level c - 1) + 1 * two32)%N by lia.
    rewrite N.mod_add by discriminate. apply N.mod_small. unfold two32; lia. }
  unfold ringok, queue, c_pop, c_getHead, item. cbn [c_with_queue c_items c_head c_level]. rewrite EL.
  unfold add32, w32, mb_length. rewrite (N.mod_small (c_head c + 1) two32) by (unfold two32; lia).
  split; [|split; [|auto]].
  - apply contents_pop; auto. rewrite H1. reflexivity.
  - split; auto. split; [apply N.mod_lt; lia|lia].
Qed.

Definition slot (c : ctrl F) (j : nat) : N := ((c_head c + N.of_nat j) mod 32)%N.
Definition at_slot (c : ctrl F) (j : nat) : motion F := item A c (slot c j).
Lemma slot_set (c : ctrl F) i j o : ringok c -> (i < 32)%nat -> (j < 32)%nat ->
  at_slot (c_set_item c (slot c j) o) i = if (i =? j)%nat then o else at_slot c i.
Proof.
  intros (H1 & H2 & H3) Hi Hj. unfold at_slot, item, slot. cbn [c_set_item c_with_items c_items c_head].
  destruct (Nat.eqb_spec i j) as [->|NE].
  - apply rget_rset_eq. rewrite H1. pose proof (N.mod_lt (c_head c + N.of_nat j) 32). lia.
  - apply rget_rset_neq. apply ring_index_neq; lia.
Qed.
Lemma ring_set (c : ctrl F) i o : ringok c -> ringok (c_set_item c i o).
Proof. intros (H1 & H2 & H3). unfold ringok. cbn [c_set_item c_with_items c_items c_head c_level]. rewrite rset_length. auto. Qed.
Lemma slot_eq (c : ctrl F) j : ringok c -> (j <= 32)%nat -> (add32 (c_head c) (N.of_nat j) mod mb_length)%N = slot c j.
Proof. intros (H1 & H2 & H3) Hj. unfold add32, slot, mb_length. rewrite w32_small; auto. unfold two32; lia. Qed.
Lemma slot_queue {Q} (P : motion F -> Q -> Prop) (dq : Q) (c : ctrl F) qs : c_level c = N.of_nat (length qs) ->
  (Forall2 P (queue A c) qs <-> forall j, (j < length qs)%nat -> P (at_slot c j) (nth j qs dq)).
Proof.
  intro L. unfold queue, contents, at_slot, slot, item. rewrite L, Nat2N.id. change mb_length with 32%N.
  set (g := fun i => rget (mo_zero A) (c_items c) ((c_head c + N.of_nat i) mod 32)).
  assert (K : forall n k (l : list Q), length l = n ->
     (Forall2 P (map g (seq k n)) l <-> forall j, (j < n)%nat -> P (g (k + j)%nat) (nth j l dq))).
  { clear. induction n; intros k l EL.
    - destruct l; [|discriminate]. cbn. split; [lia|constructor].
    - destruct l as [|x l]; [discriminate|]. cbn [seq map]. split; intro H.
      + inversion H as [|? ? ? ? H1 H2]; subst. rewrite (IHn (S k) l) in H2 by (cbn in EL; lia). intros [|j] Hj.
        * rewrite Nat.add_0_r. exact H1.
        * cbn [nth]. replace (k + S j)%nat with (S k + j)%nat by lia. apply H2. lia.
      + constructor. * specialize (H 0%nat ltac:(lia)). rewrite Nat.add_0_r in H. exact H.
        * apply (IHn (S k) l). { cbn in EL; lia. } intros j Hj. specialize (H (S j) ltac:(lia)).
          replace (S k + j)%nat with (k + S j)%nat by lia. exact H. }
  rewrite (K (length qs) 0%nat qs eq_refl). reflexivity.
Qed.
Lemma ring_push (c : ctrl F) m : ringok c -> (c_level c < 32)%N ->
  ringok (c_append A M c m) /\ c_level (c_append A M c m) = (c_level c + 1)%N /\
  c_events (c_append A M c m) = c_events c /\ c_fo (c_append A M c m) = c_fo c /\
  exists o, queue A (c_append A M c m) = queue A c ++ [mo_set A M o m (c_fo c) (c_strategy c)].
Proof.
  intros (H1 & H2 & H3) HL. unfold c_append, c_isFull, mb_length. destruct (N.leb_spec 32 (c_level c)); [lia|]. cbn [negb].
  cbn [c_push]. cbv beta iota zeta.
  assert (E1 : add32 (c_level c) 1 = (c_level c + 1)%N) by (unfold add32; apply w32_small; unfold two32; lia).
  assert (E2 : add32 (c_head c) (c_level c) = (c_head c + c_level c)%N) by (unfold add32; apply w32_small; unfold two32; lia).
  unfold c_push. rewrite E1, E2. cbv beta iota zeta.
  match goal with |- context [mo_set A M ?o m _ _] => set (o0 := o) end.
  unfold ringok, queue. cbn [c_set_item c_with_items c_with_queue c_items c_head c_level c_events c_fo]. rewrite rset_length.
  split; [repeat split; auto; lia|]. split; auto. split; auto. split; auto. exists o0. unfold mb_length. rewrite contents_push by lia. reflexivity.
Qed.

(** *** Planning all queued motions at the start, clock at 0.
    [head]: as appended; [some]: with the right limits; [best]: planned for speed. *)
Section Plan.
Context {Q : Type} (head some best : motion F -> Q -> Prop) (dq : Q) (fo : F).
Local Notation zero := (nofZ (aF A) 0).
Hypothesis head_some : forall o q, head o q -> some o q.
Hypothesis best_some : forall o q, best o q -> some o q.
Hypothesis some_vEnd : forall o q, some o q -> some (with_right_vEnd o zero) q.
Hypothesis head_vEnd : forall o q, head o q -> head (with_right_vEnd o zero) q.
Hypothesis some_vStart : forall o q, some o q -> some (with_left_vStart o zero) q.
Hypothesis some_best : forall o q, some o q -> best (mo_optimize A M o fo maximizeSpeed) q.
Hypothesis head_best : forall o q, head o q -> best (mo_optimize_at A M o fo maximizeSpeed zero) q.

Record prepared (c : ctrl F) (qs : list Q) : Prop := {
  pr_ring : ringok c;
  pr_level : c_level c = N.of_nat (length qs);
  pr_state : c_state c = ms_running;
  pr_time : st_time (c_st c) = zero;
  pr_fo : c_fo c = fo;
  pr_some : forall j, (j < length qs)%nat -> some (at_slot c j) (nth j qs dq) }.

Lemma pair_best (c : ctrl F) qs j : prepared c qs -> (S j < length qs)%nat -> (j = 0%nat -> head (at_slot c 0) (nth 0 qs dq)) ->
  let c' := c_optimizePair A M c (N.of_nat j) in
  prepared c' qs /\ best (at_slot c' j) (nth j qs dq) /\ best (at_slot c' (S j)) (nth (S j) qs dq) /\
  (forall i, (i < length qs)%nat -> i <> j -> i <> S j -> at_slot c' i = at_slot c i).
Proof.
  intros [WF LV STT TM FOE AN] Hj HH. cbv zeta.
  assert (L32 : (length qs <= 32)%nat) by (destruct WF as (_ & _ & H); lia).
  assert (HS : c_strategy c = maximizeSpeed) by (unfold c_strategy; rewrite STT; reflexivity).
  unfold c_optimizePair. rewrite slot_eq by (auto; lia). replace (N.of_nat j + 1)%N with (N.of_nat (S j)) by lia. rewrite slot_eq by (auto; lia).
  change (item A c (slot c j)) with (at_slot c j). set (oj := with_right_vEnd (at_slot c j) zero).
  set (c1 := c_set_item c (slot c j) oj).
  assert (WF1 : ringok c1) by (apply ring_set; auto).
  assert (I1 : forall i, (i < 32)%nat -> at_slot c1 i = if (i =? j)%nat then oj else at_slot c i).
  { intros i Hi. unfold c1. rewrite slot_set by (auto; lia). reflexivity. }
  change (item A c1 (slot c j)) with (at_slot c1 j). rewrite (I1 j), Nat.eqb_refl by lia.
  change (st_time (c_st c1)) with (st_time (c_st c)). rewrite TM, HS, FOE.
  assert (ID : forall d i, c_head d = c_head c -> slot d i = slot c i) by (intros d i E; unfold slot; rewrite E; auto).
  set (c2 := if (N.of_nat j =? 0)%N then _ else _).
  assert (C2 : exists o1, c2 = c_set_item c1 (slot c1 j) o1 /\ best o1 (nth j qs dq)).
  { unfold c2. rewrite (ID c1 j) by reflexivity. destruct (N.eqb_spec (N.of_nat j) 0) as [E|E]; eexists; (split; [reflexivity|]).
    - assert (j = 0%nat) by lia. subst j. apply some_best, best_some, head_best, head_vEnd, HH. reflexivity.
    - apply some_best, some_vEnd, AN. lia. }
  destruct C2 as (o1 & E2 & RD1). rewrite E2. clear c2 E2.
  set (c2 := c_set_item c1 (slot c1 j) o1). assert (WF2 : ringok c2) by (apply ring_set; auto).
  assert (I2 : forall i, (i < 32)%nat -> at_slot c2 i = if (i =? j)%nat then o1 else at_slot c i).
  { intros i Hi. unfold c2. rewrite slot_set by (auto; lia). destruct (Nat.eqb_spec i j); auto. rewrite I1 by auto. destruct (Nat.eqb_spec i j); [contradiction|auto]. }
  change (item A c2 (slot c (S j))) with (at_slot c2 (S j)). rewrite (I2 (S j)) by lia.
  destruct (Nat.eqb_spec (S j) j) as [|_]; [lia|].
  set (c3 := c_set_item c2 (slot c (S j)) (with_left_vStart (at_slot c (S j)) zero)). assert (WF3 : ringok c3) by (apply ring_set; auto).
  change (item A c3 (slot c (S j))) with (at_slot c3 (S j)).
  assert (I3 : forall i, (i < 32)%nat -> at_slot c3 i = if (i =? S j)%nat then with_left_vStart (at_slot c (S j)) zero else if (i =? j)%nat then o1 else at_slot c i).
  { intros i Hi. unfold c3. rewrite <- (ID c2 (S j)) by reflexivity. rewrite slot_set by (auto; lia). rewrite I2 by auto. reflexivity. }
  rewrite (I3 (S j)), Nat.eqb_refl by lia.
  set (o2 := mo_optimize A M _ fo maximizeSpeed).
  assert (RD2 : best o2 (nth (S j) qs dq)) by (apply some_best, some_vStart, AN; auto).
  set (c4 := c_set_item c3 (slot c (S j)) o2). assert (WF4 : ringok c4) by (apply ring_set; auto).
  assert (I4 : forall i, (i < 32)%nat -> at_slot c4 i = if (i =? S j)%nat then o2 else if (i =? j)%nat then o1 else at_slot c i).
  { intros i Hi. unfold c4. rewrite <- (ID c3 (S j)) by reflexivity. rewrite slot_set by (auto; lia). rewrite I3 by auto. destruct (i =? S j)%nat; auto. }
  split; [|split; [|split]].
  - constructor; auto. intros i Hi. rewrite I4 by lia. destruct (Nat.eqb_spec i (S j)) as [->|]; [auto|].
    destruct (Nat.eqb_spec i j) as [->|]; auto.
  - rewrite I4 by lia. destruct (Nat.eqb_spec j (S j)); [lia|]. rewrite Nat.eqb_refl. auto.
  - rewrite I4 by lia. rewrite Nat.eqb_refl. auto.
  - intros i Hi N1 N2. rewrite I4 by lia. destruct (Nat.eqb_spec i (S j)); [lia|]. destruct (Nat.eqb_spec i j); [lia|auto].
Qed.

Lemma fold_best qs js : forall (c : ctrl F), prepared c qs -> (forall j, In j js -> (0 < j)%nat /\ (S j < length qs)%nat) ->
  let c' := fold_left (c_optimizePair A M) (map N.of_nat js) c in
  prepared c' qs /\ (qs <> [] -> at_slot c' 0 = at_slot c 0) /\ forall i, (i < length qs)%nat -> (In i js \/ (exists j, In j js /\ i = S j) \/ best (at_slot c i) (nth i qs dq)) ->
    best (at_slot c' i) (nth i qs dq).
Proof.
  induction js as [|j js IH]; intros c PL HJ; cbv zeta; cbn [map fold_left].
  - split; auto. split; auto. intros i Hi [[]|[(j & [] & _)|H]]; auto.
  - destruct (HJ j (or_introl eq_refl)) as (J0 & J1).
    destruct (pair_best c qs j PL J1 ltac:(lia)) as (PL1 & A1 & A2 & A3).
    destruct (IH _ PL1) as (P2 & Z2 & Q2). { intros; apply HJ; right; auto. }
    split; auto. split. { intro NE. rewrite Z2 by auto. apply A3; lia. } intros i Hi H. apply Q2; auto.
    destruct (Nat.eq_dec i j) as [->|N1]; [right; right; auto|]. destruct (Nat.eq_dec i (S j)) as [->|N2]; [right; right; auto|].
    destruct H as [[H|H]|[(k & [H|H] & E)|H]]; try congruence; auto.
    + right. left. exists k; auto.
    + right. right. rewrite A3 by auto. auto.
Qed.

Lemma optimize_best (c : ctrl F) qs : prepared c qs -> qs <> [] -> head (at_slot c 0) (nth 0 qs dq) ->
  Forall2 best (queue A (c_optimize A M c)) qs /\ ringok (c_optimize A M c).
Proof.
  intros PL NE HD. pose proof PL as [WF LV STT TM FOE AN].
  assert (WF' : prepared (c_optimize A M c) qs /\ forall i, (i < length qs)%nat -> best (at_slot (c_optimize A M c) i) (nth i qs dq)).
  2:{ destruct WF' as [PL' R]. split; [|apply PL']. apply (slot_queue best dq); [apply PL'|auto]. }
  unfold c_optimize. rewrite LV. destruct qs as [|q [|q2 qs]]; [congruence| |].
  - change (N.of_nat (length [q]) =? 0)%N with false. change (N.of_nat (length [q]) =? 1)%N with true. cbv iota.
    assert (HS : c_strategy c = maximizeSpeed) by (unfold c_strategy; rewrite STT; reflexivity).
    assert (HI : c_head c = slot c 0). { unfold slot. rewrite N.add_0_r, N.mod_small; auto. apply WF. }
    unfold c_getHead. rewrite HI. change (item A c (slot c 0)) with (at_slot c 0). rewrite FOE, TM, HS.
    set (o := mo_optimize_at A M (at_slot c 0) fo maximizeSpeed zero).
    assert (RD : best o q) by (apply head_best; exact HD).
    assert (Q0 : at_slot (c_set_item c (slot c 0) o) 0 = o) by (rewrite slot_set by (auto; lia); reflexivity).
    split.
    + constructor; auto. * apply ring_set; auto. * intros [|j] Hj; [|cbn in Hj; lia]. rewrite Q0. auto.
    + intros [|j] Hj; [|cbn in Hj; lia]. rewrite Q0. auto.
  - set (qs0 := q :: q2 :: qs) in *. assert (HL : (2 <= length qs0 <= 32)%nat) by (split; [cbn; lia|destruct WF as (_ & _ & ?); lia]).
    destruct (N.eqb_spec (N.of_nat (length qs0)) 0); [lia|]. destruct (N.eqb_spec (N.of_nat (length qs0)) 1); [lia|].
    unfold junctions. rewrite LV. destruct (N.leb_spec 2147483648 (N.of_nat (length qs0))); [lia|].
    unfold c_strategy. rewrite STT.
    replace (N.to_nat (N.of_nat (length qs0) - 1)) with (S (length qs0 - 2))%nat by lia. rewrite <- map_rev.
    change (seq 0 (S (length qs0 - 2))) with (0%nat :: seq 1 (length qs0 - 2)). cbn [rev]. rewrite map_app, fold_left_app. cbn [map fold_left].
    destruct (fold_best qs0 (rev (seq 1 (length qs0 - 2))) c PL) as (P1 & Z1 & P2).
    { intros j Hj. apply in_rev in Hj. apply in_seq in Hj. lia. }
    set (c1 := fold_left _ (map N.of_nat (rev _)) c) in *.
    destruct (pair_best c1 qs0 0 P1 ltac:(lia)) as (P3 & B0 & B1 & B2). { intros _. rewrite Z1 by discriminate. exact HD. }
    split; [exact P3|]. intros i Hi. destruct (Nat.eq_dec i 0) as [->|N0]; [exact B0|]. destruct (Nat.eq_dec i 1) as [->|N1]; [exact B1|].
    change (c_optimizePair A M c1 0%N) with (c_optimizePair A M c1 (N.of_nat 0)). rewrite B2 by auto. apply P2; auto.
    right. left. exists (i - 1)%nat. split; [|lia]. apply in_rev. rewrite rev_involutive. apply in_seq. lia.
Qed.
End Plan.
End Ring.
