(** Proofs about step output in real time. *)
Require Import List Arith NArith ZArith Bool Lia ZifyBool ZifyNat ZifyN.
From Verif Require Import Base BaseProofs EventModel EventProofs StepModel StepSpec StepBufferProofs FlowModel FlowSpec.
Import ListNotations.
Open Scope N_scope.

Section Flow.
Context (src : nat -> step).
Hypothesis B : bounded src.
Hypothesis S : sparse src.

(** All records ever written, including those of the constructor. *)
Definition all (n : nat) : list step := W0 ++ first src n.
Lemma all_S n : all (Datatypes.S n) = all n ++ [src n].
Proof. unfold all, first. rewrite seq_S, map_app. cbn [map]. now rewrite app_assoc. Qed.
Lemma all_len n : length (all n) = (4 + n)%nat.
Proof. unfold all, first. rewrite app_length, map_length, seq_length. reflexivity. Qed.
Lemma all_in n s : In s (all n) -> 1 <= timeBefore s <= 375.
Proof.
  intro I. apply in_app_or in I as [I|I].
  - apply repeat_spec in I. subst; cbn; lia.
  - apply in_map_iff in I as (k & <- & _). apply B.
Qed.

(** The last 254 records take 750 ticks. *)
Lemma skipn_map_seq {T} (g : nat -> T) k n m : skipn k (map g (seq n m)) = map g (seq (n + k) (m - k)).
Proof.
  revert n m; induction k as [|k IH]; intros n m; cbn [skipn]; [now rewrite Nat.add_0_r, Nat.sub_0_r|].
  destruct m as [|m]; [reflexivity|]. cbn [seq map skipn]. rewrite IH. f_equal. f_equal; lia.
Qed.
Lemma tail_long n : (252 <= n)%nat -> 750 <= sum_times (skipn (n + 4 - 254) (all n)).
Proof.
  intro L. unfold all. rewrite skipn_app. change (length W0) with 4%nat. rewrite sum_times_app.
  unfold first. rewrite skipn_map_seq. rewrite Nat.add_0_l.
  destruct (Nat.eq_dec n 252) as [->|N1]; [change (252 + 4 - 254)%nat with 2%nat; change (sum_times (skipn 2 W0)) with 750; lia|].
  destruct (Nat.eq_dec n 253) as [->|N2].
  - change (253 + 4 - 254)%nat with 3%nat. change (3 - 4)%nat with 0%nat. rewrite Nat.sub_0_r.
    change (sum_times (skipn 3 W0)) with 375.
    pose proof (S 0%nat) as X. change 254%nat with (Datatypes.S 253) in X. rewrite seq_S, map_app, sum_times_app in X.
    cbn [map] in X. change (sum_times [src (0 + 253)%nat]) with (timeBefore (src 253%nat) + 0) in X.
    pose proof (B 253%nat). lia.
  - replace (skipn (n + 4 - 254) W0) with (@nil step) by (symmetry; apply skipn_all2; cbn; lia).
    cbn [sum_times fold_right]. pose proof (S (n + 4 - 254 - 4)%nat) as X.
    replace (n - (n + 4 - 254 - 4))%nat with 254%nat by lia. exact X.
Qed.

(** Ticks until an interrupt would find only two entries. *)
Definition slack (f : flow) (r : nat) : N :=
  fl_count f + (if 3 <=? sb_level (fl_b f)
                then fl_ld f + 1 + sum_times (firstn (fl_n f + 4 - 1 - (r + 2)) (skipn (r + 2) (all (fl_n f)))) else 0).

Record good (f : flow) (r : nat) (since : N) : Prop := {
  gd_inv : sb_inv (fl_b f) (all (fl_n f)) (N.of_nat r);
  gd_acct : acct (fl_b f) (all (fl_n f)) (N.of_nat r);
  gd_level : 2 <= sb_level (fl_b f);
  gd_total : sb_minTotal (fl_b f) = 1500;
  gd_min : sb_minLevel (fl_b f) = 4;
  gd_err : sb_lastError (fl_b f) = ev_none;
  gd_count : 1 <= fl_count f;
  gd_slack : 377 <= slack f r + since }.

Lemma level_len f r s : good f r s -> sb_level (fl_b f) = N.of_nat (fl_n f + 4 - r) /\ (r + 2 <= fl_n f + 4)%nat.
Proof.
  intro G. pose proof (sb_level_inv _ _ _ (gd_inv _ _ _ G)) as L. rewrite all_len in L. pose proof (gd_level _ _ _ G). lia.
Qed.
Lemma first_two n : sum_times (firstn 2 (all n)) = 750.
Proof. reflexivity. Qed.
Lemma level_max f r s : good f r s -> sb_level (fl_b f) <= 256.
Proof. intro G. apply (gd_inv _ _ _ G). Qed.
Lemma total_eq f r s : good f r s -> sb_total (fl_b f) = 750 + sum_times (skipn (r + 2) (all (fl_n f))).
Proof.
  intro G. pose proof (gd_acct _ _ _ G) as A. unfold acct in A. rewrite first_two, Nat2N.id in A. rewrite A. apply w32_small.
  pose proof (sum_times_upper 375 (skipn (r + 2) (all (fl_n f)))) as U. rewrite skipn_length, all_len in U.
  pose proof (level_max _ _ _ G). destruct (level_len _ _ _ G) as [L1 L2].
  specialize (U ltac:(intros s0 I; eapply all_in, In_skipn, I)). unfold two32. lia.
Qed.

(** When the buffer is filled. *)
Lemma filled_slack f r s : good f r s -> sb_needsFilling (fl_b f) = false -> 377 <= slack f r.
Proof.
  intros G NF. destruct (level_len _ _ _ G) as [L1 L2]. unfold sb_needsFilling in NF.
  rewrite (gd_total _ _ _ G), (gd_min _ _ _ G), (total_eq _ _ _ G) in NF.
  assert (L4 : 4 <= sb_level (fl_b f)) by lia. assert (T : 750 <= sum_times (skipn (r + 2) (all (fl_n f)))) by lia.
  unfold slack. replace (3 <=? sb_level (fl_b f)) with true by lia.
  set (l := skipn (r + 2) (all (fl_n f))) in *.
  assert (LL : length l = (fl_n f + 4 - (r + 2))%nat) by (unfold l; rewrite skipn_length, all_len; lia).
  rewrite <- (firstn_skipn (fl_n f + 4 - 1 - (r + 2)) l), sum_times_app in T.
  assert (U : sum_times (skipn (fl_n f + 4 - 1 - (r + 2)) l) <= 375 * N.of_nat 1).
  { rewrite <- (Nat2N.id 1). pose proof (sum_times_upper 375 (skipn (fl_n f + 4 - 1 - (r + 2)) l)) as U.
    rewrite skipn_length, LL in U. replace (fl_n f + 4 - (r + 2) - (fl_n f + 4 - 1 - (r + 2)))%nat with 1%nat in U by lia.
    apply U. intros x I. apply In_skipn in I. eapply all_in, In_skipn, I. }
  pose proof (gd_count _ _ _ G). lia.
Qed.

Lemma good_pass f r s : good f r s -> good (flow_step src f Pass) r s.
Proof.
  intro G. cbn [flow_step]. destruct (sb_needsFilling (fl_b f)) eqn:NF; [|exact G].
  destruct (level_len _ _ _ G) as [L1 L2].
  assert (HL : sb_level (fl_b f) < 256).
  { pose proof (level_max _ _ _ G). destruct (N.lt_ge_cases (sb_level (fl_b f)) 256); auto. exfalso.
    unfold sb_needsFilling in NF. rewrite (gd_total _ _ _ G), (gd_min _ _ _ G), (total_eq _ _ _ G) in NF.
    pose proof (tail_long (fl_n f) ltac:(lia)) as T. replace (fl_n f + 4 - 254)%nat with (r + 2)%nat in T by lia. lia. }
  pose proof (gd_inv _ _ _ G) as HI. pose proof (gd_acct _ _ _ G) as HA. pose proof (gd_level _ _ _ G) as H2.
  destruct (sb_write_fields (fl_b f) (src (fl_n f))) as (G1 & G2 & G3). destruct (G3 HL) as (_ & G5 & G6).
  constructor; cbn [fl_b fl_n fl_count fl_ld].
  - rewrite all_S. apply sb_write_inv; assumption.
  - rewrite all_S. apply acct_write; try assumption. rewrite all_len. lia.
  - lia.
  - rewrite G1. apply G.
  - rewrite G2. apply G.
  - rewrite G6. apply G.
  - apply G.
  - pose proof (gd_slack _ _ _ G) as SL. unfold slack in *. cbn [fl_b fl_n fl_count fl_ld]. rewrite G5.
    replace (3 <=? sb_level (fl_b f) + 1) with true by lia. rewrite all_S.
    destruct (3 <=? sb_level (fl_b f)) eqn:E; [|lia].
    replace (Datatypes.S (fl_n f) + 4 - 1 - (r + 2))%nat with (Datatypes.S (fl_n f + 4 - 1 - (r + 2)))%nat by lia.
    set (k := (fl_n f + 4 - 1 - (r + 2))%nat) in *. rewrite skipn_app, all_len.
    replace (r + 2 - (4 + fl_n f))%nat with 0%nat by lia. cbn [skipn].
    assert (M : sum_times (firstn k (skipn (r + 2) (all (fl_n f)))) <=
                sum_times (firstn (Datatypes.S k) (skipn (r + 2) (all (fl_n f)) ++ [src (fl_n f)]))).
    { rewrite firstn_app, sum_times_app.
      rewrite (firstn_all2 (n := Datatypes.S k) (skipn (r + 2) (all (fl_n f)))) by (rewrite skipn_length, all_len; lia).
      rewrite <- (firstn_skipn k (skipn (r + 2) (all (fl_n f)))) at 2. rewrite sum_times_app. lia. }
    lia.
Qed.

Lemma read_frame b : 0 < sb_level b <= 256 -> sb_level (fst (sb_read b)) = sb_level b - 1 /\ sb_minTotal (fst (sb_read b)) = sb_minTotal b
        /\ sb_minLevel (fst (sb_read b)) = sb_minLevel b /\ sb_lastError (fst (sb_read b)) = sb_lastError b.
Proof.
  intro L. unfold sb_read. replace (0 <? sb_level b) with true by lia. cbn.
  repeat split. apply sub32_small; unfold two32; lia.
Qed.

(** A tick, as long as the fill loop is prompt. *)
Lemma good_tick f r s : good f r s -> s <= 375 ->
  (fl_count f <> 1 /\ good (flow_step src f Tick) r (s + 1)) \/
  (fl_count f = 1 /\ good (flow_step src f Tick) (r + 1) (s + 1) /\ 3 <= sb_level (fl_b f) /\
   fl_pins (flow_step src f Tick) = signals (nth r (all (fl_n f)) dstep) /\
   fl_ld (flow_step src f Tick) + 1 = timeBefore (nth (r + 2) (all (fl_n f)) dstep)).
Proof.
  intros G HS. pose proof (gd_slack _ _ _ G) as SL. pose proof (gd_count _ _ _ G) as C1. destruct (level_len _ _ _ G) as [L1 L2].
  destruct (N.eq_dec (fl_count f) 1) as [C|C].
  - right. split; [exact C|]. unfold flow_step. replace (fl_count f <=? 1) with true by lia.
    assert (L3 : 3 <= sb_level (fl_b f)).
    { unfold slack in SL. destruct (3 <=? sb_level (fl_b f)) eqn:E; lia. }
    pose proof (gd_inv _ _ _ G) as HI. pose proof (level_max _ _ _ G) as LM.
    destruct (sb_read_inv _ _ _ HI ltac:(lia)) as (HI' & E1 & E2). specialize (E2 L3).
    pose proof (acct_read _ _ _ HI (gd_acct _ _ _ G) L3 ltac:(intros x I; apply all_in in I; unfold two32; lia)) as HA.
    destruct (read_frame (fl_b f) ltac:(lia)) as (R1 & R2 & R3 & R4).
    destruct (sb_read (fl_b f)) as [b1 x]. cbn [fst snd] in *.
    unfold wnth in E1, E2. rewrite Nat2N.id in E1. replace (N.to_nat (N.of_nat r + 2)) with (r + 2)%nat in E2 by lia.
    assert (LT : (r + 2 < length (all (fl_n f)))%nat) by (rewrite all_len; lia).
    pose proof (all_in _ _ (nth_In (all (fl_n f)) dstep LT)) as TB. rewrite <- E2 in TB.
    assert (LD : sub32 (timeBefore x) 1 + 1 = timeBefore x) by (rewrite sub32_small by (unfold two32; lia); lia).
    replace (N.of_nat r + 1) with (N.of_nat (r + 1)) in * by lia.
    split; [|cbn [fl_pins fl_ld fl_b]; repeat split; [exact L3|exact E1|rewrite LD; exact E2]].
    constructor; cbn [fl_b fl_n fl_count fl_ld]; try assumption; try lia; try (rewrite ?R2, ?R3, ?R4; apply G).
    unfold slack in SL |- *. cbn [fl_b fl_n fl_count fl_ld]. rewrite LD, R1. replace (3 <=? sb_level (fl_b f)) with true in SL by lia.
    rewrite (skipn_nth dstep (r + 2) _ LT) in SL. rewrite <- E2 || idtac.
    replace (Datatypes.S (r + 2)) with (r + 1 + 2)%nat in SL by lia.
    destruct (3 <=? sb_level (fl_b f) - 1) eqn:E.
    + replace (fl_n f + 4 - 1 - (r + 2))%nat with (Datatypes.S (fl_n f + 4 - 1 - (r + 1 + 2)))%nat in SL by lia.
      cbn [firstn sum_times fold_right] in SL. fold (sum_times (firstn (fl_n f + 4 - 1 - (r + 1 + 2)) (skipn (r + 1 + 2) (all (fl_n f))))) in SL.
      rewrite E2. lia.
    + replace (fl_n f + 4 - 1 - (r + 2))%nat with 0%nat in SL by lia. cbn in SL. lia.
  - left. split; [exact C|]. unfold flow_step. replace (fl_count f <=? 1) with false by lia.
    destruct G. constructor; cbn [fl_b fl_n fl_count fl_ld] in *; try assumption; try lia.
    unfold slack in *. cbn [fl_b fl_n fl_count fl_ld]. lia.
Qed.

Lemma good_reset f r s : good f r s -> good f r (if sb_needsFilling (fl_b f) then s else 0).
Proof.
  intro G. destruct (sb_needsFilling (fl_b f)) eqn:NF; [exact G|].
  pose proof (filled_slack _ _ _ G NF). destruct G. constructor; auto. lia.
Qed.

(** What the pins will show. *)
Definition ahead (f : flow) (r : nat) (W : list step) : list N :=
  replay (fl_pins f) (mkStep (fl_count f) (signals (nth r W dstep)) ::
                      mkStep (fl_ld f + 1) (signals (nth (r + 1) W dstep)) :: skipn (r + 2) W).

Lemma flow_n_mono ops : forall f, (fl_n f <= fl_n (fst (flow_run src f ops)))%nat.
Proof.
  induction ops as [|o ops IH]; intro f; cbn [flow_run]; [cbn; lia|].
  specialize (IH (flow_step src f o)). destruct (flow_run src (flow_step src f o) ops) as [f2 l]. cbn [fst] in *.
  enough (fl_n f <= fl_n (flow_step src f o))%nat by lia.
  destruct o; cbn [flow_step]; [destruct (_ <=? _); [destruct (sb_read _)|]|destruct (sb_needsFilling _)]; cbn; lia.
Qed.
Lemma all_prefix n m : (n <= m)%nat -> exists l, all m = all n ++ l.
Proof.
  intro L. exists (map src (seq n (m - n))). unfold all, first. replace m with (n + (m - n))%nat at 1 by lia.
  rewrite seq_app, map_app, app_assoc. reflexivity.
Qed.
Lemma nth_prefix n m k : (n <= m)%nat -> (k < n + 4)%nat -> nth k (all m) dstep = nth k (all n) dstep.
Proof. intros L K. destruct (all_prefix n m L) as [l ->]. apply app_nth1. rewrite all_len. lia. Qed.

Lemma run_lemma ops : forall f r s, good f r s -> prompt src 376 s f ops ->
  let '(f', pins) := flow_run src f ops in
  sb_lastError (fl_b f') = ev_none /\ exists x, ahead f r (all (fl_n f')) = pins ++ x.
Proof.
  induction ops as [|o ops IH]; intros f r s G P; cbn [flow_run].
  - split; [apply G|]. eexists; reflexivity.
  - cbn [prompt] in P. destruct P as [P1 P2].
    pose proof (flow_n_mono (o :: ops) f) as N1. pose proof (flow_n_mono ops (flow_step src f o)) as N2.
    cbn [flow_run] in N1. destruct o.
    + destruct (level_len _ _ _ G) as [L1 L2]. pose proof (gd_count _ _ _ G) as C1.
      destruct (good_tick f r s G ltac:(lia)) as [(C & G')|(C & G' & L3 & E1 & E2)]; apply good_reset in G'; specialize (IH _ _ _ G' P2).
      * assert (EF : flow_step src f Tick = mkFl (fl_b f) (fl_count f - 1) (fl_ld f) (fl_pins f) (fl_n f))
          by (unfold flow_step; replace (fl_count f <=? 1) with false by lia; reflexivity).
        rewrite EF in *. destruct (flow_run src _ ops) as [f2 l]. cbn [fst fl_pins fl_n] in *. destruct IH as (ER & x & EX).
        split; [exact ER|]. exists x. unfold ahead in *. cbn [fl_pins fl_count fl_ld replay timeBefore signals app] in *.
        replace (N.to_nat (fl_count f) - 1)%nat with (Datatypes.S (N.to_nat (fl_count f - 1) - 1)) by lia.
        cbn [repeat app]. f_equal. exact EX.
      * destruct (flow_run src (flow_step src f Tick) ops) as [f2 l] eqn:ER. cbn [fst] in *. destruct IH as (ER' & x & EX).
        split; [exact ER'|]. exists x.
        assert (EN : fl_n (flow_step src f Tick) = fl_n f) by (unfold flow_step; destruct (_ <=? _); [destruct (sb_read _)|]; reflexivity).
        assert (EC : fl_count (flow_step src f Tick) = fl_ld f + 1).
        { unfold flow_step; replace (fl_count f <=? 1) with true by lia; destruct (sb_read _); reflexivity. }
        unfold ahead in *. rewrite EC, E1, E2 in EX. rewrite EN in N2. rewrite C. cbn [replay timeBefore signals app] in *.
        change (N.to_nat 1 - 1)%nat with 0%nat. cbn [repeat app].
        rewrite E1, (nth_prefix (fl_n f) (fl_n f2) r) by lia. f_equal.
        rewrite (skipn_nth dstep (r + 2)) by (rewrite all_len; lia). cbn [replay].
        replace (Datatypes.S (r + 2)) with (r + 1 + 2)%nat by lia. replace (r + 2)%nat with (r + 1 + 1)%nat by lia.
        rewrite (nth_prefix (fl_n f) (fl_n f2) (r + 1 + 1)) by lia. rewrite (nth_prefix (fl_n f) (fl_n f2) (r + 1 + 1)) in EX by lia.
        replace (r + 2)%nat with (r + 1 + 1)%nat in EX by lia. exact EX.
    + pose proof (good_pass f r s G) as G'. apply good_reset in G'. specialize (IH _ _ _ G' P2).
      destruct (flow_run src (flow_step src f Pass) ops) as [f2 l] eqn:ER. cbn [fst] in *. destruct IH as (ER' & x & EX).
      split; [exact ER'|]. exists x. rewrite <- EX. unfold ahead, flow_step. destruct (sb_needsFilling (fl_b f)); reflexivity.
Qed.

Lemma good_init : good (flow_init sb0) 0 0.
Proof.
  destruct sb0_inv as (_ & HI & NF & T & M1 & M2). constructor; cbn [flow_init fl_b fl_n fl_count fl_ld]; try lia.
  - exact HI.
  - exact sb0_acct.
  - vm_compute; discriminate.
  - vm_compute; reflexivity.
  - vm_compute; discriminate.
Qed.

Lemma replay_hold p n s l : 1 <= timeBefore s -> signals s = p -> repeat p n ++ replay p (s :: l) = repeat p (n + N.to_nat (timeBefore s)) ++ replay p l.
Proof.
  intros T E. cbn [replay]. rewrite E, repeat_app, <- app_assoc. f_equal.
  replace (N.to_nat (timeBefore s)) with (N.to_nat (timeBefore s) - 1 + 1)%nat at 2 by lia. rewrite repeat_app, <- app_assoc. reflexivity.
Qed.

Lemma flow_lemma ops : prompt src 376 0 (flow_init sb0) ops ->
  let '(f, pins) := flow_run src (flow_init sb0) ops in
  sb_lastError (fl_b f) = ev_none /\ exists x, repeat 0 952 ++ replay 0 (first src (fl_n f)) = pins ++ x.
Proof.
  intro P. pose proof (run_lemma ops _ _ _ good_init P) as R.
  destruct (flow_run src (flow_init sb0) ops) as [f pins]. destruct R as (E & x & EX). split; [exact E|]. exists x.
  rewrite <- EX. unfold ahead, all. cbn [flow_init fl_pins fl_count fl_ld]. cbn [W0 repeat app skipn nth signals].
  reflexivity.
Qed.
End Flow.
