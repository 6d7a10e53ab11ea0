(** How many records a sequence of step commands takes. *)
Require Import List Arith NArith ZArith Bool Lia ZifyBool ZifyNat ZifyN.
From Verif Require Import Base BaseProofs EventModel EventProofs StepModel StepSpec StepBufferProofs StepSignalsProofs Num MotionModel CtrlModel CtrlSpec CtrlProofs FlowModel FlowSpec FlowProofs.
Import ListNotations.
Open Scope N_scope.

(** At most [p] more pin changes are due if no command follows. *)
Definition due (g : sigs) (p : nat) : Prop :=
  match p with
  | 0%nat => sg_stepRise g = sg_dirSetup g /\ sg_stepFall g = sg_dirSetup g
  | 1%nat => sg_stepRise g = sg_stepFall g
  | _ => True
  end.
Record settled (g : sigs) : Prop := {
  se_out : sg_lastOutput g = sg_dirSetup g;
  se_max : sg_maxTicks g = 375;
  se_ticks : sg_ticks g < 375 }.

Lemma cmds_none cs : forall g k, busy cs = false -> sg_cmds g k cs = g.
Proof.
  induction cs as [|c r IH]; intros g k E; cbn [sg_cmds]; [reflexivity|]. cbn [busy existsb] in E.
  apply orb_false_elim in E as [E1 E2]. destruct c; [discriminate|]. apply IH, E2.
Qed.

Lemma tick_count g cs p : settled g -> due g p -> (p <= 2)%nat ->
  let '(g1, o) := sg_tick g cs in
  settled g1 /\ (exists q t, (q <= 2)%nat /\ due g1 q /\
    (q + length (match o with Some s => [s] | None => [] end) <= p + 3 * (if busy cs then 1 else 0) + t)%nat /\
    375 * N.of_nat t <= sum_times (match o with Some s => [s] | None => [] end)) /\
  sg_ticks g + 1 = sum_times (match o with Some s => [s] | None => [] end) + sg_ticks g1 /\
  (o <> None -> sg_ticks g1 = 0).
Proof.
  intros [S1 S2 S3] P LP. unfold sg_tick. destruct (cmds_keep cs (sg_next g) 0) as (K1 & K2 & K3). cbv zeta in *.
  cbn [sg_next sg_lastOutput sg_ticks sg_maxTicks] in K1, K2, K3. rewrite add32_small in K2 by (unfold two32; lia).
  pose proof (cmds_none cs (sg_next g) 0) as N0.
  set (g1 := sg_cmds (sg_next g) 0 cs) in *.
  unfold sg_isModified, sg_isTimedOut. rewrite K1, K2, K3, S1, S2.
  destruct (N.eqb_spec (sg_dirSetup g1) (sg_dirSetup g)) as [EM|EM].
  - destruct (N.leb_spec 375 (sg_ticks g + 1)) as [LT|LT]; cbn [negb orb sg_output].
    + split; [constructor; cbn [sg_lastOutput sg_dirSetup sg_maxTicks sg_ticks]; lia|].
      cbn [sum_times fold_right timeBefore sg_ticks length]. rewrite K2. split; [|split; [lia|reflexivity]].
      destruct (busy cs).
      * exists 2%nat, 1%nat. split; [lia|]. split; [exact I|]. lia.
      * specialize (N0 eq_refl). rewrite N0.
        destruct p as [|[|p]]; cbn [due] in P.
        -- exists 0%nat, 1%nat. split; [lia|]. split; [cbn [due sg_stepRise sg_dirSetup sg_stepFall sg_next]; destruct P; split; congruence|]. lia.
        -- exists 0%nat, 1%nat. split; [lia|]. split; [cbn [due sg_stepRise sg_dirSetup sg_stepFall sg_next]; split; congruence|]. lia.
        -- exists 1%nat, 1%nat. split; [lia|]. split; [reflexivity|]. lia.
    + split; [constructor; congruence || lia|]. cbn [sum_times fold_right length]. split; [|split; [lia|congruence]].
      destruct (busy cs).
      * exists 2%nat, 0%nat. split; [lia|]. split; [exact I|]. lia.
      * specialize (N0 eq_refl). rewrite N0.
        destruct p as [|[|p]]; cbn [due] in P.
        -- exists 0%nat, 0%nat. split; [lia|]. split; [cbn [due sg_stepRise sg_dirSetup sg_stepFall sg_next]; destruct P; split; congruence|]. lia.
        -- exists 0%nat, 0%nat. split; [lia|]. split; [cbn [due sg_stepRise sg_dirSetup sg_stepFall sg_next]; split; congruence|]. lia.
        -- exists 1%nat, 0%nat. split; [lia|]. split; [reflexivity|]. lia.
  - cbn [negb orb sg_output].
    split; [constructor; cbn [sg_lastOutput sg_dirSetup sg_maxTicks sg_ticks]; lia|].
    cbn [sum_times fold_right timeBefore sg_ticks length]. rewrite K2. split; [|split; [lia|reflexivity]].
    destruct (busy cs).
    + exists 2%nat, 0%nat. split; [lia|]. split; [exact I|]. lia.
    + specialize (N0 eq_refl). rewrite N0 in *.
      destruct p as [|[|p]]; cbn [due] in P.
      * exfalso. apply EM. cbn [sg_next sg_dirSetup]. apply P.
      * exists 0%nat, 0%nat. split; [lia|]. split; [cbn [due sg_stepRise sg_dirSetup sg_stepFall sg_next]; split; congruence|]. lia.
      * exists 1%nat, 0%nat. split; [lia|]. split; [reflexivity|]. lia.
Qed.

Lemma busy_count cs r : length (filter busy (cs :: r)) = ((if busy cs then 1 else 0) + length (filter busy r))%nat.
Proof. cbn [filter]. destruct (busy cs); reflexivity. Qed.

Lemma run_count css : forall g p, settled g -> due g p -> (p <= 2)%nat ->
  let '(g1, _, recs) := sg_run g css in
  settled g1 /\ (exists q, (q <= 2)%nat /\ due g1 q) /\
  (exists t, (length recs <= p + 3 * length (filter busy css) + t)%nat /\ 375 * N.of_nat t <= sum_times recs) /\
  sg_ticks g + N.of_nat (length css) = sum_times recs + sg_ticks g1.
Proof.
  induction css as [|cs r IH]; intros g p S0 P LP; cbn [sg_run].
  - split; [exact S0|]. split; [eauto|]. split; [exists 0%nat; cbn; lia|cbn; lia].
  - pose proof (tick_count g cs p S0 P LP) as T. destruct (sg_tick g cs) as [g1 o].
    destruct T as (S1 & (q & t & LQ & DQ & C1 & C2) & C3 & _).
    specialize (IH g1 q S1 DQ LQ). destruct (sg_run g1 r) as [[g2 pins] recs].
    destruct IH as (S2 & X & (t2 & C4 & C5) & C6). split; [exact S2|]. split; [exact X|].
    rewrite busy_count. cbn [length].
    destruct o as [s|]; cbn [length sum_times fold_right] in *; fold (sum_times recs) in *.
    + split; [exists (t + t2)%nat; split; lia|lia].
    + split; [exists (t + t2)%nat; split; lia|lia].
Qed.

(** A run cut after its first records. *)
Lemma run_cut css : forall g a b, settled g -> (exists p, (p <= 2)%nat /\ due g p) -> snd (sg_run g css) = a ++ b -> a <> [] ->
  exists c1 c2, css = c1 ++ c2 /\ snd (sg_run g c1) = a /\ sg_ticks (fst (fst (sg_run g c1))) = 0 /\
    snd (sg_run (fst (fst (sg_run g c1))) c2) = b.
Proof.
  induction css as [|cs r IH]; intros g a b S0 (p & LP & P) E NE.
  - cbn in E. destruct a; [contradiction|discriminate].
  - cbn [sg_run] in E. pose proof (tick_count g cs p S0 P LP) as T. destruct (sg_tick g cs) as [g1 o] eqn:ET.
    destruct T as (S1 & (q & t & LQ & DQ & _) & _ & Z).
    assert (CASE : (exists s, o = Some s /\ a = [s] /\ snd (sg_run g1 r) = b) \/
      exists a', a' <> [] /\ a = match o with Some s => s :: a' | None => a' end /\ snd (sg_run g1 r) = a' ++ b).
    { destruct (sg_run g1 r) as [[g2 pins] recs]. cbn [snd] in *. destruct o as [s|].
      - destruct a as [|s' a]; [contradiction|]. injection E as E1 E2. subst s'. destruct a as [|s2 a].
        + left. exists s. auto.
        + right. exists (s2 :: a). split; [discriminate|]. auto.
      - right. exists a. auto. }
    destruct CASE as [(s & -> & -> & EB)|(a' & NE' & -> & EB)].
    + exists [cs], r. split; [reflexivity|]. cbn [sg_run]. rewrite ET. cbn [fst snd]. split; [reflexivity|]. split; [apply Z; discriminate|exact EB].
    + destruct (IH g1 a' b S1 ltac:(eauto) EB NE') as (c1 & c2 & -> & Q1 & Q2 & Q3).
      exists (cs :: c1), c2. split; [reflexivity|]. cbn [sg_run]. rewrite ET.
      destruct (sg_run g1 c1) as [[g2 pins] recs]. cbn [fst snd] in *. subst recs. split; [reflexivity|]. auto.
Qed.

Lemma settled0 : settled (sg_setMaxTicks sg_zero 375).
Proof. constructor; reflexivity. Qed.
Lemma due0 : due (sg_setMaxTicks sg_zero 375) 0.
Proof. split; reflexivity. Qed.

Lemma firstn_busy n css : (length (filter busy (firstn n css)) <= length (filter busy css))%nat.
Proof. rewrite <- (firstn_skipn n css) at 2. rewrite filter_app, app_length. lia. Qed.

Lemma dense_lemma css a b c : few css -> recs_of 375 css = a ++ b ++ c -> (253 <= length b)%nat -> 750 <= sum_times b.
Proof.
  intros F E LB. destruct (N.le_gt_cases 750 (sum_times b)) as [LE|LT]; [exact LE|exfalso].
  assert (NB : b <> []) by (intros ->; cbn in LB; lia).
  (* to the end of a *)
  assert (CA : exists c1 c2 g1, css = c1 ++ c2 /\ settled g1 /\ (exists p, (p <= 2)%nat /\ due g1 p) /\ sg_ticks g1 = 0 /\
    snd (sg_run g1 c2) = b ++ c).
  { destruct a as [|s a].
    - exists [], css, (sg_setMaxTicks sg_zero 375). split; [reflexivity|]. split; [apply settled0|]. split; [exists 0%nat; split; [lia|apply due0]|].
      split; [reflexivity|exact E].
    - destruct (run_cut css (sg_setMaxTicks sg_zero 375) (s :: a) (b ++ c) settled0 ltac:(exists 0%nat; split; [lia|apply due0]) E ltac:(discriminate))
        as (c1 & c2 & EC & _ & Z & EB).
      pose proof (run_count c1 _ _ settled0 due0 ltac:(lia)) as RC.
      destruct (sg_run (sg_setMaxTicks sg_zero 375) c1) as [[g1 p1] r1]. cbn [fst snd] in *. destruct RC as (S1 & D1 & _).
      exists c1, c2, g1. auto. }
  destruct CA as (c1 & c2 & g1 & EC & S1 & D1 & Z1 & EB).
  destruct (run_cut c2 g1 b c S1 D1 EB NB) as (c3 & c4 & EC2 & E3 & Z3 & _).
  destruct D1 as (p & LP & P). pose proof (run_count c3 g1 p S1 P LP) as RC.
  destruct (sg_run g1 c3) as [[g3 p3] r3]. cbn [fst snd] in *. subst r3. destruct RC as (_ & _ & (t & C1 & C2) & C3).
  specialize (F (length c1)). rewrite EC, skipn_app, skipn_all2, Nat.sub_diag in F by lia. cbn [app skipn] in F.
  rewrite EC2, firstn_app in F. rewrite (firstn_all2 c3) in F by lia.
  rewrite filter_app, app_length in F. lia.
Qed.

(** Window sums of a list as a stream. *)
Lemma map_nth_seq {T} (l : list T) d : map (fun i => nth i l d) (seq 0 (length l)) = l.
Proof.
  apply nth_ext with d d; [now rewrite map_length, seq_length|]. intros n LN. rewrite map_length, seq_length in LN.
  rewrite (nth_indep _ d (nth 0 l d)) by (rewrite map_length, seq_length; lia).
  rewrite (map_nth (fun i => nth i l d) (seq 0 (length l)) 0%nat n), seq_nth by lia. reflexivity.
Qed.
Lemma first_stream recs n : (n <= length recs)%nat -> first (stream recs) n = firstn n recs.
Proof.
  intro L. unfold first, stream. set (d := mkStep 375 (last (map signals recs) 0)).
  transitivity (firstn n (map (fun i => nth i recs d) (seq 0 (length recs)))); [|now rewrite map_nth_seq].
  rewrite firstn_map. f_equal.
  replace (length recs) with (n + (length recs - n))%nat by lia. rewrite seq_app, firstn_app, seq_length, Nat.sub_diag.
  rewrite firstn_all2 by (rewrite seq_length; lia). cbn [firstn]. now rewrite app_nil_r.
Qed.
Lemma window_stream recs n m : (n + m <= length recs)%nat -> map (stream recs) (seq n m) = firstn m (skipn n recs).
Proof.
  intro L. pose proof (first_stream recs (n + m) L) as E. unfold first in E. rewrite seq_app, map_app in E.
  rewrite firstn_skipn_comm, <- E. change (seq (0 + n) m) with (seq n m). rewrite skipn_app, skipn_all2; rewrite ?map_length, ?seq_length; [|lia].
  rewrite Nat.sub_diag. reflexivity.
Qed.

Lemma stream_bounded recs : (forall s, In s recs -> 1 <= timeBefore s <= 375) -> bounded (stream recs).
Proof.
  intros B n. unfold stream. destruct (nth_in_or_default n recs (mkStep 375 (last (map signals recs) 0))) as [I | ->]; [apply B, I|cbn; lia].
Qed.
Lemma stream_late recs n m : (length recs <= n)%nat -> sum_times (map (stream recs) (seq n m)) = 375 * N.of_nat m.
Proof.
  revert n; induction m as [|m IH]; intros n L; cbn [seq map]; [reflexivity|].
  change (sum_times (stream recs n :: map (stream recs) (seq (Datatypes.S n) m)))
    with (timeBefore (stream recs n) + sum_times (map (stream recs) (seq (Datatypes.S n) m))).
  rewrite IH by lia. unfold stream. rewrite nth_overflow by lia. cbn [timeBefore]. lia.
Qed.

Lemma stream_sparse recs :
  (forall a b c, recs = a ++ b ++ c -> (253 <= length b)%nat -> 750 <= sum_times b) -> sparse (stream recs).
Proof.
  intros H n.
  destruct (le_lt_dec (n + 253) (length recs)) as [L|L].
  - change 254%nat with (253 + 1)%nat. rewrite seq_app, map_app, sum_times_app, window_stream by exact L.
    assert (LE : 750 <= sum_times (firstn 253 (skipn n recs))); [|lia].
    apply (H (firstn n recs) _ (skipn 253 (skipn n recs))); [now rewrite !firstn_skipn|rewrite firstn_length, skipn_length; lia].
  - replace 254%nat with (252 + 2)%nat by reflexivity. rewrite seq_app, map_app, sum_times_app.
    rewrite (stream_late recs (n + 252) 2) by lia. lia.
Qed.

(** The pins in real time, for given commands. *)
Lemma last_cons {T} (l : list T) : forall x p, last (x :: l) p = last l x.
Proof. induction l as [|y l IH]; intros x p; [reflexivity|]. change (last (x :: y :: l) p) with (last (y :: l) p). now rewrite !IH. Qed.
Lemma replay_app l1 : forall p l2, replay p (l1 ++ l2) = replay p l1 ++ replay (last (map signals l1) p) l2.
Proof.
  induction l1 as [|s l1 IH]; intros p l2; [reflexivity|]. cbn [app replay map]. rewrite IH, <- !app_assoc, last_cons. reflexivity.
Qed.

Lemma real_time_lemma css ops : few css ->
  let recs := recs_of 375 css in
  prompt (stream recs) 376 0 (flow_init sb0) ops ->
  let '(f, pins) := flow_run (stream recs) (flow_init sb0) ops in
  (fl_n f <= length recs)%nat ->
  sb_lastError (fl_b f) = ev_none /\ length pins = ticks_in ops /\ exists x, repeat 0 952 ++ pins_of 375 css = pins ++ x.
Proof.
  intros F recs P. destruct (records_lemma 375 css ltac:(reflexivity)) as (p & n & EP & _ & _ & B). fold recs in EP, B.
  change (N.max 1 375) with 375 in B.
  pose proof (flow_lemma (stream recs) (stream_bounded recs B)
    (stream_sparse recs (fun a b c E L => dense_lemma css a b c F E L)) ops P) as R.
  assert (LEN : forall f0, length (snd (flow_run (stream recs) f0 ops)) = ticks_in ops).
  { clear. unfold ticks_in. induction ops as [|o ops IH]; intro f0; cbn [flow_run filter length]; [reflexivity|].
    specialize (IH (flow_step (stream recs) f0 o)). destruct (flow_run (stream recs) (flow_step (stream recs) f0 o) ops) as [f2 l].
    cbn [snd] in *. destruct o; cbn [length]; congruence. }
  specialize (LEN (flow_init sb0)).
  destruct (flow_run (stream recs) (flow_init sb0) ops) as [f pins]. cbn [snd] in LEN. intro L. destruct R as (E & x & EX).
  split; [exact E|]. split; [exact LEN|]. rewrite first_stream in EX by exact L.
  exists (x ++ replay (last (map signals (firstn (fl_n f) recs)) 0) (skipn (fl_n f) recs) ++ repeat p n).
  rewrite EP. rewrite <- (firstn_skipn (fl_n f) recs) at 1. rewrite replay_app, !app_assoc, EX, <- !app_assoc. reflexivity.
Qed.

(** From the motion controller, whatever the arithmetic, to the pins in real time. *)
Lemma controller_real_time D F (A : arith D F) (M : machine F) width ops1 ops2 (c1 c2 : ctrl F) recs1 recs2 :
  c_run A M (c_init A 375 width) ops1 = Ok (c1, recs1) -> (ops1 = [] \/ exists l, ops1 = l ++ [OReset]) ->
  c_run A M c1 ops2 = Ok (c2, recs2) -> no_reset ops2 ->
  exists css1 css2, recs1 = recs_of 375 css1 /\ recs1 ++ recs2 = recs_of 375 (css1 ++ css2) /\
    (forall a, (a < 3)%nat -> nth a (c_pos c2) 0%Z = net (cmd_at a css2)) /\
    (few (css1 ++ css2) -> forall ops, prompt (stream (recs1 ++ recs2)) 376 0 (flow_init sb0) ops ->
     let '(f, pins) := flow_run (stream (recs1 ++ recs2)) (flow_init sb0) ops in
     (fl_n f <= length (recs1 ++ recs2))%nat ->
     sb_lastError (fl_b f) = ev_none /\ length pins = ticks_in ops /\
     exists x, repeat 0 952 ++ pins_of 375 (css1 ++ css2) = pins ++ x).
Proof.
  intros R1 RS R2 NR.
  destruct (position_counts_lemma A M 375 width ops1 ops2 c1 c2 recs1 recs2 R1 RS R2 NR) as (css1 & css2 & E1 & E2 & P & _).
  exists css1, css2. split; [exact E1|]. split; [exact E2|]. split; [exact P|]. intros FW ops. rewrite E2. apply real_time_lemma, FW.
Qed.
