(** Proofs about the step/direction waveform (stepsignals.cpp). *)
Require Import List Arith NArith Bool Lia ZifyBool ZifyNat ZifyN.
From Verif Require Import Base StepModel StepSpec BaseProofs EventProofs.
Import ListNotations.
Open Scope N_scope.

Lemma mask32_bit a k : a <= 3 -> N.testbit (mask32 a) k = (2 * a =? k).
Proof.
  intro H. unfold mask32. rewrite N.shiftl_1_l.
  rewrite w32_small. apply N.pow2_bits_eqb.
  unfold two32. apply N.lt_le_trans with (2 ^ 7); [apply N.pow_lt_mono_r; lia|vm_compute; discriminate].
Qed.
Lemma mask32_bit2 a k : a <= 3 -> N.testbit (w32 (N.shiftl (mask32 a) 1)) k = (2 * a + 1 =? k).
Proof.
  intro H. unfold mask32. rewrite N.shiftl_1_l, N.shiftl_mul_pow2.
  rewrite (w32_small (2 ^ (2 * a))).
  - rewrite <- N.pow_add_r. rewrite w32_small. apply N.pow2_bits_eqb.
    unfold two32. apply N.lt_le_trans with (2 ^ 8); [apply N.pow_lt_mono_r; lia|vm_compute; discriminate].
  - unfold two32. apply N.lt_le_trans with (2 ^ 7); [apply N.pow_lt_mono_r; lia|vm_compute; discriminate].
Qed.

Definition sbit (a : N) (x : N) := N.testbit x (2 * a).
Definition dbit (a : N) (x : N) := N.testbit x (2 * a + 1).

(** Per-axis view of the three stages. *)
Record axview := mkAx { v_ds : bool; v_rs : bool; v_fs : bool; v_dd : bool; v_dr : bool; v_df : bool }.
Definition view (a : N) (g : sigs) : axview :=
  mkAx (sbit a (sg_dirSetup g)) (sbit a (sg_stepRise g)) (sbit a (sg_stepFall g))
       (dbit a (sg_dirSetup g)) (dbit a (sg_stepRise g)) (dbit a (sg_stepFall g)).

Definition is_bwd (d : dir) := match d with Bwd => true | Fwd => false end.

Lemma view_cmd_same a g d : a <= 3 ->
  view a (sg_cmd g a (Some d)) = mkAx false true false (is_bwd d) (is_bwd d) (is_bwd d).
Proof.
  intro H. destruct d; cbn [sg_cmd]; unfold sg_stepForward, sg_stepBackward;
  replace (a <=? nmbrAxis) with true by (unfold nmbrAxis; lia);
  unfold view, sbit, dbit; cbn [sg_dirSetup sg_stepRise sg_stepFall is_bwd];
  rewrite !N.ldiff_spec || rewrite !N.lor_spec;
  repeat rewrite ?N.lor_spec, ?N.ldiff_spec, ?mask32_bit, ?mask32_bit2 by auto;
  replace (2 * a =? 2 * a) with true by lia; replace (2 * a + 1 =? 2 * a + 1) with true by lia;
  replace (2 * a =? 2 * a + 1) with false by lia; replace (2 * a + 1 =? 2 * a) with false by lia;
  cbn [negb]; rewrite ?andb_false_r, ?andb_true_r, ?orb_true_r, ?orb_false_r; reflexivity.
Qed.

Lemma view_cmd_other a a' g c : a <> a' -> view a (sg_cmd g a' c) = view a g.
Proof.
  intro H. destruct c as [[]|]; cbn [sg_cmd]; [| |reflexivity];
  unfold sg_stepForward, sg_stepBackward; destruct (N.leb_spec a' nmbrAxis) as [C|C]; auto;
  unfold nmbrAxis in C;
  unfold view, sbit, dbit; cbn [sg_dirSetup sg_stepRise sg_stepFall];
  repeat rewrite ?N.lor_spec, ?N.ldiff_spec, ?mask32_bit, ?mask32_bit2 by auto;
  replace (2 * a' =? 2 * a) with false by lia; replace (2 * a' + 1 =? 2 * a + 1) with false by lia;
  replace (2 * a' =? 2 * a + 1) with false by lia; replace (2 * a' + 1 =? 2 * a) with false by lia;
  cbn [negb]; rewrite ?andb_true_r, ?orb_false_r; reflexivity.
Qed.

Lemma view_cmds a cs : forall k g,
  (a < k \/ k + N.of_nat (length cs) <= a) -> view a (sg_cmds g k cs) = view a g.
Proof.
  induction cs as [|c r IH]; intros k g H; cbn [sg_cmds length] in *; auto.
  rewrite IH by lia. apply view_cmd_other. lia.
Qed.

Definition view_after (c : option dir) (v : axview) : axview :=
  match c with
  | None => v
  | Some d => mkAx false true false (is_bwd d) (is_bwd d) (is_bwd d)
  end.

Lemma view_cmds_hit a cs : forall k g, a <= 3 -> k <= a -> 
  view a (sg_cmds g k cs) = view_after (nth (N.to_nat (a - k)) cs None) (view a g).
Proof.
  induction cs as [|c r IH]; intros k g Ha Hk; cbn [sg_cmds].
  - destruct (N.to_nat (a - k)); reflexivity.
  - destruct (N.eq_dec k a) as [->|Hne].
    + rewrite N.sub_diag. cbn [N.to_nat nth].
      rewrite view_cmds by lia.
      destruct c as [d|]; [apply view_cmd_same; auto|reflexivity].
    + rewrite IH by lia. replace (N.to_nat (a - k)) with (S (N.to_nat (a - (k + 1)))) by lia.
      cbn [nth]. rewrite view_cmd_other by lia. reflexivity.
Qed.

Lemma view_next a g : view a (sg_next g) =
  mkAx (v_rs (view a g)) (v_fs (view a g)) (v_fs (view a g)) (v_dr (view a g)) (v_df (view a g)) (v_df (view a g)).
Proof. reflexivity. Qed.

Lemma view_tick a g cs : a <= 3 ->
  view a (fst (sg_tick g cs)) = view_after (nth (N.to_nat a) cs None) (view a (sg_next g)).
Proof.
  intro H. unfold sg_tick.
  assert (E: view a (sg_cmds (sg_next g) 0 cs) = view_after (nth (N.to_nat a) cs None) (view a (sg_next g))).
  { rewrite view_cmds_hit by lia. now rewrite N.sub_0_r. }
  destruct (_ || _); cbn [sg_output fst]; exact E.
Qed.

Definition good (a : N) (g : sigs) (prev cur : bool) : Prop :=
  v_rs (view a g) = prev /\ v_fs (view a g) = false /\ v_dr (view a g) = cur /\ v_df (view a g) = cur.

Definition newdir (cur : bool) (c : option dir) := match c with Some d => is_bwd d | None => cur end.

Lemma tick_good a g cs prev cur : a <= 3 -> good a g prev cur ->
  let c := nth (N.to_nat a) cs None in
  let g' := fst (sg_tick g cs) in
  good a g' (is_cmd c) (newdir cur c) /\
  step_pin a (sg_dirSetup g') = prev && negb (is_cmd c) /\
  dir_pin a (sg_dirSetup g') = newdir cur c.
Proof.
  intros Ha (R & F & D & E) c g'.
  pose proof (view_tick a g cs Ha) as V. fold c in V. fold g' in V.
  rewrite view_next, R, F, D, E in V.
  change (step_pin a (sg_dirSetup g')) with (v_ds (view a g')).
  change (dir_pin a (sg_dirSetup g')) with (v_dd (view a g')).
  unfold good. rewrite V. destruct c as [d|]; cbn; rewrite ?andb_false_r, ?andb_true_r; repeat split.
Qed.

Lemma run_wave a css : a <= 3 -> forall g prev cur, good a g prev cur ->
  let pins := snd (fst (sg_run g css)) in
  map (step_pin a) pins = step_wave prev (cmd_at (N.to_nat a) css) /\
  map (dir_pin a) pins = dir_wave cur (cmd_at (N.to_nat a) css).
Proof.
  intro Ha. induction css as [|cs r IH]; intros g prev cur G; cbn [sg_run].
  - split; reflexivity.
  - destruct (tick_good a g cs prev cur Ha G) as (G' & S & D).
    destruct (sg_tick g cs) as [g1 o]. cbn [fst] in *. specialize (IH _ _ _ G').
    destruct (sg_run g1 r) as [[g2 pins] recs]. cbn [fst snd map cmd_at] in *.
    destruct IH as [I1 I2]. rewrite S, D, I1, I2. split.
    + reflexivity.
    + destruct (nth (N.to_nat a) cs None) as [[]|]; reflexivity.
Qed.

Lemma good_zero a m : good a (sg_setMaxTicks sg_zero m) false false.
Proof. unfold good, view, sbit, dbit; cbn; rewrite ?N.bits_0; auto. Qed.


Lemma waveform_lemma m css a : a < nmbrAxis ->
  map (step_pin a) (pins_of m css) = step_wave false (cmd_at (N.to_nat a) css) /\
  map (dir_pin a) (pins_of m css) = dir_wave false (cmd_at (N.to_nat a) css).
Proof. unfold nmbrAxis. intro H. apply run_wave; [lia|apply good_zero]. Qed.

(** Pulses from the two waves. *)
Fixpoint wpulses (prev : bool) (sw dw : list bool) : list dir :=
  match sw, dw with
  | s :: sr, d :: dr => (if negb prev && s then [if d then Bwd else Fwd] else []) ++ wpulses s sr dr
  | _, _ => []
  end.
Lemma pulses_w a pins : forall prev, pulses a prev pins = wpulses prev (map (step_pin a) pins) (map (dir_pin a) pins).
Proof. induction pins as [|p r IH]; intro prev; cbn; auto. now rewrite IH. Qed.

Lemma wpulses_wave l : forall prev cur ppin, (ppin = true -> prev = false) ->
  wpulses ppin (step_wave prev (l ++ [None])) (dir_wave cur (l ++ [None])) =
  (if prev then match l with Some _ :: _ => [] | _ => [if cur then Bwd else Fwd] end else []) ++ unshadowed l.
Proof.
  induction l as [|c r IH]; intros prev cur ppin H; cbn [app step_wave dir_wave].
  - cbn. rewrite ?andb_true_r. destruct prev, ppin, cur; cbn; auto; exfalso; intuition congruence.
  - destruct c as [d|].
    + cbn [is_cmd negb]. rewrite andb_false_r.
      transitivity ((if negb ppin && false then [Fwd] else []) ++
        wpulses false (step_wave true (r ++ [None])) (dir_wave (is_bwd d) (r ++ [None]))).
      { destruct d; cbn [wpulses is_bwd]; rewrite andb_false_r; reflexivity. }
      rewrite andb_false_r, IH by discriminate. cbn [app unshadowed].
      destruct prev; cbn [app]; (destruct r as [|[|] r']; destruct d; reflexivity).
    + cbn [is_cmd negb]. rewrite andb_true_r. cbn [wpulses].
      rewrite IH by auto. cbn [app unshadowed].
      destruct prev, ppin, cur; cbn; auto; exfalso; intuition congruence.
Qed.

Lemma cmd_at_app a l l' : cmd_at a (l ++ l') = cmd_at a l ++ cmd_at a l'.
Proof. apply map_app. Qed.

Lemma pulses_exact_lemma m css a : a < nmbrAxis ->
  pulses a false (pins_of m (css ++ [[]])) = unshadowed (cmd_at (N.to_nat a) css).
Proof.
  intro H. rewrite pulses_w. destruct (waveform_lemma m (css ++ [[]]) a H) as [-> ->].
  rewrite cmd_at_app. replace (cmd_at (N.to_nat a) [[]]) with [@None dir]
    by (cbn; destruct (N.to_nat a); reflexivity).
  now rewrite wpulses_wave by discriminate.
Qed.

Lemma unshadowed_spaced l : spaced l -> unshadowed l = commanded l.
Proof.
  induction l as [|c r IH]; intro H; cbn [unshadowed commanded flat_map]; auto.
  fold (commanded r). destruct c as [d|].
  - destruct r as [|c' r']; [reflexivity|]. destruct H as [H1 H2]. rewrite IH by auto.
    destruct c' as [d'|]; [exfalso; apply H1; auto|reflexivity].
  - destruct r as [|c' r']; [reflexivity|]. destruct H as [H1 H2]. now rewrite IH by auto.
Qed.

Lemma pulses_spaced_lemma m css a : a < nmbrAxis -> spaced (cmd_at (N.to_nat a) css) ->
  pulses a false (pins_of m (css ++ [[]])) = commanded (cmd_at (N.to_nat a) css).
Proof. intros H S. rewrite pulses_exact_lemma by auto. now apply unshadowed_spaced. Qed.

(** Setup time: at a rising edge, the direction pin already had the same level
    one tick earlier, and the edge lasts exactly one tick. *)
Lemma wave_setup l : forall prev cur i,
  nth i (step_wave prev l) false = true -> (0 < i)%nat ->
  nth (i - 1) (dir_wave cur l) false = nth i (dir_wave cur l) false /\
  nth (i - 1) (step_wave prev l) false = false /\
  nth (i + 1) (step_wave prev l) false = false.
Proof.
  induction l as [|c r IH]; intros prev cur i Hi H0.
  - destruct i; discriminate.
  - destruct i as [|i]; [lia|]. cbn [step_wave nth] in Hi.
    destruct i as [|i].
    + destruct r as [|c' r']; [discriminate|]. cbn [step_wave nth] in *.
      destruct c as [d|]; [|discriminate]. destruct c' as [d'|]; [discriminate|].
      cbn [is_cmd]. rewrite andb_false_r. split; [destruct d; reflexivity|]. split; auto.
      cbn. destruct r' as [|c'' r'']; reflexivity.
    + destruct (IH (is_cmd c) (newdir cur c) (S i) Hi ltac:(lia)) as (A & B & C).
      replace (S (S i) - 1)%nat with (S i) by lia. replace (S i - 1)%nat with i in * by lia.
      replace (S (S i) + 1)%nat with (S (S i + 1)) by lia.
      cbn [step_wave nth]. split; [|auto].
      destruct c as [[]|]; cbn [dir_wave nth newdir is_bwd] in *; exact A.
Qed.

Lemma nth_map_bool {A} (f : A -> bool) (l : list A) d i : (i < length l)%nat ->
  nth i (map f l) false = f (nth i l d).
Proof. intro H. rewrite nth_indep with (d' := f d) by now rewrite map_length. apply map_nth. Qed.

Lemma run_length g css : length (snd (fst (sg_run g css))) = length css.
Proof.
  revert g. induction css as [|cs r IH]; intro g; cbn [sg_run length]; auto.
  destruct (sg_tick g cs) as [g1 o]. specialize (IH g1). destruct (sg_run g1 r) as [[g2 p] q]. cbn in *. now rewrite IH.
Qed.

Lemma pulse_shape_lemma m css a n : a < nmbrAxis -> (S n < length css)%nat ->
  let pin i := nth i (pins_of m css) 0 in
  step_pin a (pin n) = true ->
  exists k, n = S k /\
    step_pin a (pin k) = false /\ step_pin a (pin (S n)) = false /\
    dir_pin a (pin k) = dir_pin a (pin n) /\
    exists d, nth (N.to_nat a) (nth k css []) None = Some d /\
              dir_pin a (pin n) = match d with Bwd => true | Fwd => false end.
Proof.
  intros Ha Hn pin Hp.
  destruct (waveform_lemma m css a Ha) as [WS WD].
  assert (LEN: length (pins_of m css) = length css) by apply run_length.
  assert (PS: forall i, (i < length css)%nat -> step_pin a (pin i) = nth i (step_wave false (cmd_at (N.to_nat a) css)) false).
  { intros i Hi. unfold pin. rewrite <- WS. rewrite (nth_map_bool _ _ 0) by lia. reflexivity. }
  assert (PD: forall i, (i < length css)%nat -> dir_pin a (pin i) = nth i (dir_wave false (cmd_at (N.to_nat a) css)) false).
  { intros i Hi. unfold pin. rewrite <- WD. rewrite (nth_map_bool _ _ 0) by lia. reflexivity. }
  rewrite PS in Hp by lia.
  destruct n as [|k].
  { exfalso. destruct css; cbn in Hp; discriminate. }
  exists k. split; auto.
  destruct (wave_setup _ false false _ Hp ltac:(lia)) as (A & B & C).
  replace (S k - 1)%nat with k in * by lia. replace (S k + 1)%nat with (S (S k)) in * by lia.
  rewrite !PS, !PD by lia. repeat split; auto.
  (* the command *)
  clear - Hp. revert Hp. generalize false at 1 as prev. generalize false at 2 as cur.
  revert k. induction css as [|cs r IH]; intros k cur prev Hp; cbn [cmd_at map] in *.
  - destruct k; discriminate.
  - cbn [step_wave nth] in Hp. destruct k as [|k].
    + destruct r as [|cs' r']; cbn [map] in *; [discriminate|]. cbn [step_wave nth] in Hp.
      apply andb_prop in Hp as [P1 P2]. cbn [nth].
      destruct (nth (N.to_nat a) cs None) as [d|] eqn:E; [|discriminate].
      exists d. split; auto. destruct (nth (N.to_nat a) cs' None); [discriminate|]. destruct d; reflexivity.
    + destruct (IH k (newdir cur (nth (N.to_nat a) cs None)) _ Hp) as (d & D1 & D2).
      exists d. split; auto. rewrite <- D2.
      destruct (nth (N.to_nat a) cs None) as [[]|]; cbn [dir_wave]; reflexivity.
Qed.

(** Every other pin stays low. *)
Lemma cmds_high k cs : forall g b, (length cs <= N.to_nat nmbrAxis - b)%nat -> 2 * nmbrAxis <= k ->
  N.testbit (sg_dirSetup g) k = false -> N.testbit (sg_stepRise g) k = false -> N.testbit (sg_stepFall g) k = false ->
  let g' := sg_cmds g (N.of_nat b) cs in
  N.testbit (sg_dirSetup g') k = false /\ N.testbit (sg_stepRise g') k = false /\ N.testbit (sg_stepFall g') k = false.
Proof.
  unfold nmbrAxis. induction cs as [|c r IH]; intros g b HL HK A B C; cbn [sg_cmds length] in *; [auto|].
  replace (N.of_nat b + 1) with (N.of_nat (S b)) by lia.
  apply IH; try lia;
  (destruct c as [[]|]; cbn [sg_cmd]; auto; unfold sg_stepForward, sg_stepBackward;
   destruct (_ <=? _); auto; cbn [sg_dirSetup sg_stepRise sg_stepFall];
   repeat rewrite ?N.lor_spec, ?N.ldiff_spec, ?mask32_bit, ?mask32_bit2 by lia;
   rewrite ?A, ?B, ?C; cbn [andb orb]; lia).
Qed.

Lemma run_high k css : 2 * nmbrAxis <= k -> (forall cs, In cs css -> (length cs <= N.to_nat nmbrAxis)%nat) ->
  forall g, N.testbit (sg_stepRise g) k = false -> N.testbit (sg_stepFall g) k = false ->
  forall p, In p (snd (fst (sg_run g css))) -> N.testbit p k = false.
Proof.
  intros HK. induction css as [|cs r IH]; intros HL g B C p; cbn [sg_run]; [intros []|].
  destruct (cmds_high k cs (sg_next g) 0) as (X & Y & Z); auto.
  { specialize (HL cs ltac:(now left)). lia. }
  assert (E: exists g1 o, sg_tick g cs = (g1, o) /\ sg_dirSetup g1 = sg_dirSetup (sg_cmds (sg_next g) 0 cs) /\
     sg_stepRise g1 = sg_stepRise (sg_cmds (sg_next g) 0 cs) /\ sg_stepFall g1 = sg_stepFall (sg_cmds (sg_next g) 0 cs)).
  { unfold sg_tick. destruct (_ || _); cbn [sg_output]; eauto 10. }
  destruct E as (g1 & o & -> & E1 & E2 & E3).
  specialize (IH ltac:(intros; apply HL; now right) g1).
  destruct (sg_run g1 r) as [[g2 pins] recs]. cbn [fst snd] in *.
  intros [<-|I].
  - rewrite E1. exact X.
  - apply IH; auto; [rewrite E2|rewrite E3]; auto.
Qed.

(** C16 *)
Definition invt (g : sigs) (lastpins : N) : Prop :=
  sg_lastOutput g = lastpins /\ (sg_ticks g < sg_maxTicks g \/ sg_ticks g = 0) /\ sg_maxTicks g < two32.

Lemma cmds_keep cs : forall g k, let g' := sg_cmds g k cs in
  sg_lastOutput g' = sg_lastOutput g /\ sg_ticks g' = sg_ticks g /\ sg_maxTicks g' = sg_maxTicks g.
Proof.
  induction cs as [|c r IH]; intros g k; cbn [sg_cmds]; auto.
  destruct (IH (sg_cmd g k c) (k + 1)) as (A & B & C). cbv zeta. rewrite A, B, C.
  destruct c as [[]|]; cbn [sg_cmd]; auto; unfold sg_stepForward, sg_stepBackward; destruct (_ <=? _); auto.
Qed.

Lemma records_run css : forall g, 
  (sg_ticks g < sg_maxTicks g \/ sg_ticks g = 0) -> sg_maxTicks g < two32 ->
  let '(g', pins, recs) := sg_run g css in
  repeat (sg_lastOutput g) (N.to_nat (sg_ticks g)) ++ pins
    = replay (sg_lastOutput g) recs ++ repeat (sg_lastOutput g') (N.to_nat (sg_ticks g')) /\
  (forall s, In s recs -> 1 <= timeBefore s <= N.max 1 (sg_maxTicks g)) /\
  (sg_ticks g' < sg_maxTicks g \/ sg_ticks g' = 0).
Proof.
  induction css as [|cs r IH]; intros g HT HM; cbn [sg_run].
  - cbn. rewrite app_nil_r. split; [auto|]. split; [intros ? []|auto].
  - unfold sg_tick. destruct (cmds_keep cs (sg_next g) 0) as (A & B & C). cbv zeta in *.
    set (g1 := sg_cmds (sg_next g) 0 cs) in *. cbn [sg_next sg_lastOutput sg_ticks sg_maxTicks] in A, B, C.
    rewrite add32_small in B by (unfold two32 in *; lia).
    destruct (sg_isModified g1 || sg_isTimedOut g1) eqn:E.
    + cbn [sg_output].
      match goal with |- context [sg_run ?x r] => set (g2 := x) end.
      specialize (IH g2). change (sg_ticks g2) with 0 in IH. change (sg_maxTicks g2) with (sg_maxTicks g1) in IH.
      rewrite C in IH. specialize (IH ltac:(auto) HM).
      destruct (sg_run g2 r) as [[g3 pins] recs]. destruct IH as (I1 & I2 & I3).
      change (sg_dirSetup g2) with (sg_dirSetup g1). change (sg_lastOutput g2) with (sg_dirSetup g1) in I1.
      split; [|split; auto].
      * cbn [replay timeBefore signals]. rewrite B.
        replace (N.to_nat (sg_ticks g + 1) - 1)%nat with (N.to_nat (sg_ticks g)) by lia.
        rewrite <- !app_assoc. f_equal. cbn [app]. f_equal. cbn in I1. exact I1.
      * intros s [<-|I]; auto. cbn [timeBefore]. rewrite B. lia.
    + apply orb_false_elim in E as [E1 E2]. unfold sg_isModified in E1. unfold sg_isTimedOut in E2.
      specialize (IH g1). rewrite B, C in IH. rewrite B, C in E2.
      specialize (IH ltac:(lia) HM).
      destruct (sg_run g1 r) as [[g3 pins] recs]. destruct IH as (I1 & I2 & I3).
      split; [|split; auto].
      rewrite A in *. assert (D: sg_dirSetup g1 = sg_lastOutput g) by lia. rewrite D.
      rewrite <- I1. replace (N.to_nat (sg_ticks g + 1)) with (N.to_nat (sg_ticks g) + 1)%nat by lia.
      rewrite repeat_app, <- app_assoc. reflexivity.
Qed.

Lemma records_lemma m css : m < two32 ->
  exists p n, pins_of m css = replay 0 (recs_of m css) ++ repeat p n /\
    p = last (map signals (recs_of m css)) 0 /\ N.of_nat n < N.max 1 m /\
    (forall s, In s (recs_of m css) -> 1 <= timeBefore s <= N.max 1 m).
Proof.
  intro H. pose proof (records_run css (sg_setMaxTicks sg_zero m) ltac:(now right) H) as R.
  unfold pins_of, recs_of. destruct (sg_run (sg_setMaxTicks sg_zero m) css) as [[g' pins] recs] eqn:E.
  cbn [fst snd]. destruct R as (R1 & R2 & R3). cbn [sg_setMaxTicks sg_maxTicks] in *.
  exists (sg_lastOutput g'), (N.to_nat (sg_ticks g')). split; [exact R1|]. split; [|split; [lia|auto]].
  (* last output *)
  clear - E. assert (G: forall css g, let '(g', _, recs) := sg_run g css in
     sg_lastOutput g' = last (map signals recs) (sg_lastOutput g)).
  { clear. induction css as [|cs r IH]; intro g; cbn [sg_run]; auto.
    unfold sg_tick. destruct (cmds_keep cs (sg_next g) 0) as (A & _).
    destruct (_ || _); cbn [sg_output].
    - match goal with |- context [sg_run ?x r] => set (g2 := x) end. specialize (IH g2).
      destruct (sg_run g2 r) as [[g3 pins] recs]. rewrite IH. cbn [map signals].
      change (sg_lastOutput g2) with (sg_dirSetup (sg_cmds (sg_next g) 0 cs)).
      generalize (sg_dirSetup (sg_cmds (sg_next g) 0 cs)) as d. clear.
      intro d. destruct (map signals recs) as [|x l]; [reflexivity|].
      change (last (d :: x :: l) (sg_lastOutput g)) with (last (x :: l) (sg_lastOutput g)).
      revert x. induction l as [|y l IH]; intro x; [reflexivity|]. exact (IH y).
    - specialize (IH (sg_cmds (sg_next g) 0 cs)).
      destruct (sg_run _ r) as [[g3 pins] recs]. rewrite IH. cbv zeta in A. now rewrite A. }
  specialize (G css (sg_setMaxTicks sg_zero m)). rewrite E in G. exact G.
Qed.

(** C17 counterexample: three steps on consecutive ticks make one pulse. *)
Lemma consecutive_lemma :
  pulses 0 false (pins_of 375 ([[Some Fwd]; [Some Fwd]; [Some Fwd]] ++ [[]])) = [Fwd] /\
  commanded (cmd_at 0 [[Some Fwd]; [Some Fwd]; [Some Fwd]]) = [Fwd; Fwd; Fwd].
Proof. split; vm_compute; reflexivity. Qed.

(** Non-vacuity: a spaced two-axis command sequence with a reversal. *)
Definition wave_css : list (list (option dir)) :=
  [[Some Fwd; None; None]; [None; Some Bwd]; [Some Bwd]; []; [Some Fwd; Some Bwd; Some Fwd]; []].
Example wave_css_ok : spaced (cmd_at 0 wave_css) /\
  pulses 0 false (pins_of 375 (wave_css ++ [[]])) = [Fwd; Bwd; Fwd] /\
  pins_of 375 wave_css = [0; 9; 14; 11; 8; 29] /\
  length (recs_of 375 wave_css) = 5%nat.
Proof.
  split; [|vm_compute; auto].
  cbn. repeat split; intros [? ?]; discriminate.
Qed.

(** The guard [axis <= nmbrAxis] lets the first non-existent axis through. *)
Lemma axis_off_by_one_lemma :
  sg_dirSetup (sg_next (sg_stepForward sg_zero nmbrAxis)) = 64.
Proof. vm_compute. reflexivity. Qed.

Lemma other_pins_lemma : forall m css k p, 2 * nmbrAxis <= k ->
  (forall cs, In cs css -> (length cs <= N.to_nat nmbrAxis)%nat) ->
  In p (pins_of m css) -> N.testbit p k = false.
Proof.
  intros m css k p HK HL I. refine (run_high k css HK HL _ _ _ p I); apply N.bits_0.
Qed.

Lemma consecutive_refuted_lemma :
  exists css, pulses 0 false (pins_of 375 (css ++ [[]])) = [Fwd] /\
    commanded (cmd_at 0 css) = [Fwd; Fwd; Fwd].
Proof. eexists. exact consecutive_lemma. Qed.

Lemma invalid_axis_refuted_lemma :
  exists axis, nmbrAxis <= axis /\
  N.testbit (sg_dirSetup (sg_next (sg_stepForward sg_zero axis))) 6 = true.
Proof. exists nmbrAxis. split; [reflexivity|vm_compute; reflexivity]. Qed.

Lemma invalid_axis_lemma : forall g axis, nmbrAxis < axis ->
  sg_stepForward g axis = g /\ sg_stepBackward g axis = g.
Proof.
  intros g axis H. unfold sg_stepForward, sg_stepBackward.
  replace (axis <=? nmbrAxis) with false by lia. auto.
Qed.
