(** A main loop that keeps coming round fills the buffer in time. *)
Require Import List Arith NArith ZArith Bool Lia ZifyBool ZifyNat ZifyN.
From Verif Require Import Base BaseProofs EventModel EventProofs StepModel StepSpec StepBufferProofs FlowModel FlowSpec FlowProofs PaceSpec.
Import ListNotations.
Open Scope N_scope.

Lemma ticks_app a b : ticks_in (a ++ b) = (ticks_in a + ticks_in b)%nat.
Proof. unfold ticks_in. rewrite filter_app, app_length. reflexivity. Qed.
Lemma passes_app a b : passes_in (a ++ b) = (passes_in a + passes_in b)%nat.
Proof. unfold passes_in. rewrite filter_app, app_length. reflexivity. Qed.
Lemma steady_app a b : steady (a ++ b) -> steady b.
Proof. intros S x y z E. apply (S (a ++ x) y z). rewrite E, !app_assoc. reflexivity. Qed.

Lemma skipn_plus {A} (l : list A) a : forall b, skipn (a + b) l = skipn a (skipn b l).
Proof.
  induction l as [|x l IH]; intro b; [rewrite !skipn_nil; reflexivity|]. destruct b as [|b]; [rewrite Nat.add_0_r; reflexivity|].
  replace (a + S b)%nat with (S (a + b)) by lia. cbn [skipn]. apply IH.
Qed.

Section Steady.
Context (src : nat -> step).
Hypothesis B : bounded src.
Hypothesis SP : sparse src.
Notation good := (good src).

(** [g] is the state there would be if nothing had been written since. *)
Lemma full_lemma f g r s : good f r s -> good g r s -> (fl_n g + 254 <= fl_n f)%nat -> sb_needsFilling (fl_b f) = false.
Proof.
  intros GF GG L. destruct (level_len src f r s GF) as (L1 & L2). destruct (level_len src g r s GG) as (L3 & L4).
  unfold sb_needsFilling. rewrite (gd_total _ _ _ _ GF), (gd_min _ _ _ _ GF), (total_eq src B f r s GF).
  assert (T : 750 <= sum_times (skipn (r + 2) (all src (fl_n f)))).
  { pose proof (tail_long src B SP (fl_n f) ltac:(lia)) as T. replace (fl_n f + 4 - 254)%nat with ((fl_n f + 4 - 254 - (r + 2)) + (r + 2))%nat in T by lia.
    rewrite skipn_plus in T. rewrite <- (firstn_skipn (fl_n f + 4 - 254 - (r + 2)) (skipn (r + 2) (all src (fl_n f)))), sum_times_app. lia. }
  lia.
Qed.

Lemma steady_run ops : forall f g r b, good f r (N.of_nat (ticks_in b)) -> good g r (N.of_nat (ticks_in b)) ->
  fl_count f = fl_count g -> fl_ld f = fl_ld g -> fl_n f = (fl_n g + passes_in b)%nat -> (passes_in b < 254)%nat -> steady (b ++ ops) ->
  prompt src 376 (N.of_nat (ticks_in b)) f ops.
Proof.
  induction ops as [|o ops IH]; intros f g r b GF GG EC EL EN PB ST; cbn [prompt]; [exact I|].
  assert (TB : (ticks_in b <= 376)%nat) by (apply (ST [] b (o :: ops)); auto).
  assert (SO : steady ops) by (apply (steady_app (b ++ [o])); rewrite <- app_assoc; exact ST).
  assert (RE : forall f' r', good f' r' 0 -> prompt src 376 0 f' ops).
  { intros f' r' G'. apply (IH f' f' r' []); auto; cbn; lia. }
  assert (ST' : steady ((b ++ [o]) ++ ops)) by (rewrite <- app_assoc; exact ST).
  destruct o.
  - assert (TB' : (ticks_in (b ++ [Tick]) <= 376)%nat).
    { apply (ST [] (b ++ [Tick]) ops); [rewrite <- app_assoc; reflexivity|]. rewrite passes_app; change (passes_in [Pass]) with 1%nat; change (passes_in [Tick]) with 0%nat. lia. }
    assert (ET : N.of_nat (ticks_in (b ++ [Tick])) = N.of_nat (ticks_in b) + 1) by (rewrite ticks_app; cbn [ticks_in filter length]; unfold ticks_in; cbn; lia).
    split; [lia|]. rewrite <- ET.
    assert (LS : exists r', good (flow_step src f Tick) r' (N.of_nat (ticks_in b) + 1) /\ good (flow_step src g Tick) r' (N.of_nat (ticks_in b) + 1) /\
      fl_count (flow_step src f Tick) = fl_count (flow_step src g Tick) /\ fl_ld (flow_step src f Tick) = fl_ld (flow_step src g Tick) /\
      fl_n (flow_step src f Tick) = fl_n f /\ fl_n (flow_step src g Tick) = fl_n g).
    { assert (FN : forall h, fl_n (flow_step src h Tick) = fl_n h) by (intro h; unfold flow_step; destruct (_ <=? _); [destruct (sb_read _)|]; reflexivity).
      destruct (good_tick src B f r _ GF ltac:(lia)) as [(C1 & G1)|(C1 & G1 & F1 & _ & F3)]; destruct (good_tick src B g r _ GG ltac:(lia)) as [(C2 & G2)|(C2 & G2 & H1 & _ & H3)]; try lia.
      - exists r. rewrite !FN. split; auto. split; auto. unfold flow_step.
        pose proof (gd_count _ _ _ _ GF). replace (fl_count f <=? 1) with false by lia. replace (fl_count g <=? 1) with false by lia. cbn. rewrite EC, EL. auto.
      - exists (r + 1)%nat. rewrite !FN. split; auto. split; auto. split; [|split; [|auto]].
        + unfold flow_step. replace (fl_count f <=? 1) with true by lia. replace (fl_count g <=? 1) with true by lia. destruct (sb_read (fl_b f)), (sb_read (fl_b g)). cbn. lia.
        + destruct (level_len src g r _ GG) as (L3 & L4). rewrite (nth_prefix src (fl_n g) (fl_n f)) in F3 by lia. lia. }
    destruct LS as (r' & G1 & G2 & C1 & D1 & N1 & N2).
    destruct (sb_needsFilling (fl_b (flow_step src f Tick))) eqn:NF.
    + apply (IH _ (flow_step src g Tick) r' (b ++ [Tick])); rewrite ?ET; auto; rewrite passes_app; change (passes_in [Tick]) with 0%nat; lia.
    + apply (RE _ r'). pose proof (good_reset src B _ _ _ G1) as GR. rewrite NF in GR. exact GR.
  - split; [lia|]. pose proof (good_pass src B SP f r _ GF) as G1. pose proof (good_reset src B _ _ _ G1) as GR.
    destruct (sb_needsFilling (fl_b (flow_step src f Pass))) eqn:NF; [|apply (RE _ r); exact GR].
    assert (ET : ticks_in (b ++ [Pass]) = ticks_in b) by (rewrite ticks_app; cbn; lia). rewrite <- ET in *.
    assert (NF0 : sb_needsFilling (fl_b f) = true).
    { destruct (sb_needsFilling (fl_b f)) eqn:E; auto. unfold flow_step in NF. rewrite E in NF. congruence. }
    assert (EF : flow_step src f Pass = mkFl (sb_write (fl_b f) (src (fl_n f))) (fl_count f) (fl_ld f) (fl_pins f) (S (fl_n f))) by (unfold flow_step; rewrite NF0; reflexivity).
    apply (IH _ g r (b ++ [Pass])); auto; rewrite EF in *; cbn [fl_count fl_ld fl_n]; auto.
    + rewrite passes_app; change (passes_in [Pass]) with 1%nat; change (passes_in [Tick]) with 0%nat. lia.
    + rewrite passes_app; change (passes_in [Pass]) with 1%nat; change (passes_in [Tick]) with 0%nat. destruct (Nat.eq_dec (passes_in b) 253) as [E|]; [|lia]. exfalso.
      rewrite (full_lemma _ g r _ G1 GG) in NF; [discriminate|]. cbn [fl_n]. lia.
Qed.

Lemma steady_prompt ops : steady ops -> prompt src 376 0 (flow_init sb0) ops.
Proof. intro ST. pose proof (good_init src) as G. apply (steady_run ops (flow_init sb0) (flow_init sb0) 0 []); auto. cbn. lia. Qed.
End Steady.

Lemma flow_n src ops : forall f, (fl_n (fst (flow_run src f ops)) <= fl_n f + passes_in ops)%nat.
Proof.
  induction ops as [|o ops IH]; intro f; cbn [flow_run]; [cbn; lia|]. specialize (IH (flow_step src f o)).
  destruct (flow_run src (flow_step src f o) ops) as [f2 l]. cbn [fst] in *.
  destruct o; unfold passes_in in *; cbn [filter length flow_step] in *; [destruct (_ <=? _); [destruct (sb_read _)|]|destruct (sb_needsFilling _)]; cbn [fl_n] in *; lia.
Qed.
