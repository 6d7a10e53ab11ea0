Require Import List Arith NArith ZArith Bool Lia ZifyBool ZifyNat ZifyN.
From Verif Require Import Base BaseProofs EventModel EventSpec EventProofs InputModel InputSpec.
Import ListNotations.
Open Scope N_scope.
Ltac Zify.zify_post_hook ::= Z.div_mod_to_equations.

Ltac dlt := match goal with |- context [?a <? ?b] => destruct (N.ltb_spec a b) end.

(** ** Debouncing *)

Lemma surplus_app lv a b : surplus lv (a ++ b) = (surplus lv a + surplus lv b)%Z.
Proof. unfold surplus. rewrite !count_occ_app. lia. Qed.

Lemma surplus_cons lv x l :
  surplus lv (x :: l) = ((if Bool.eqb x lv then 1 else -1) + surplus lv l)%Z.
Proof.
  unfold surplus. cbn [count_occ].
  destruct x, lv; cbn [negb Bool.eqb]; repeat (destruct Bool.bool_dec; try congruence); lia.
Qed.

(** maximal surplus over the most recent runs, clipped at 0 *)
Definition msr (lv : bool) (l : list bool) : Z :=
  fold_left (fun w x => Z.max 0 (w + (if Bool.eqb x lv then 1 else -1)))%Z l 0%Z.

Lemma msr_snoc lv l x :
  msr lv (l ++ [x]) = Z.max 0 (msr lv l + (if Bool.eqb x lv then 1 else -1))%Z.
Proof. unfold msr. now rewrite fold_left_app. Qed.

Lemma msr_nonneg lv l : (0 <= msr lv l)%Z.
Proof. destruct l using rev_ind; [cbn; lia|rewrite msr_snoc; lia]. Qed.

Lemma msr_upper lv l : forall old recent, l = old ++ recent -> (surplus lv recent <= msr lv l)%Z.
Proof.
  induction l as [|x l IH] using rev_ind; intros old recent E.
  - destruct old; [|discriminate]. cbn in E. subst. unfold surplus; cbn; lia.
  - destruct recent as [|y r _] using rev_ind.
    + pose proof (msr_nonneg lv (l ++ [x])). unfold surplus; cbn. lia.
    + rewrite app_assoc in E. apply app_inj_tail in E as [E ->].
      specialize (IH _ _ E). rewrite msr_snoc, surplus_app, surplus_cons.
      unfold surplus at 2; cbn [count_occ]. lia.
Qed.

Lemma msr_attained lv l : exists old recent, l = old ++ recent /\ surplus lv recent = msr lv l.
Proof.
  induction l as [|x l IH] using rev_ind.
  - exists [], []. split; auto.
  - destruct IH as (o & r & E & S). rewrite msr_snoc.
    destruct (Z.leb_spec 0 (msr lv l + (if Bool.eqb x lv then 1 else -1))).
    + exists o, (r ++ [x]). split; [rewrite app_assoc; congruence|].
      rewrite surplus_app, surplus_cons. unfold surplus at 2; cbn [count_occ]. lia.
    + exists (l ++ [x]), []. split; [now rewrite app_nil_r|]. unfold surplus; cbn; lia.
Qed.

Lemma wins_msr lv l : wins lv l <-> (5 <= msr lv l)%Z.
Proof.
  split.
  - intros (o & r & E & H). pose proof (msr_upper lv l o r E). lia.
  - intro H. destruct (msr_attained lv l) as (o & r & E & S). exists o, r. split; auto; lia.
Qed.

Lemma db_run_snoc d l x :
  db_run d (l ++ [x]) =
  let '(d1, es) := db_run d l in let '(d2, e) := db_getEvent d1 x in (d2, es ++ [e]).
Proof.
  revert d; induction l as [|y l IH]; intro d; cbn.
  - now destruct (db_getEvent d x).
  - destruct (db_getEvent d y) as [d1 e]. rewrite IH.
    destruct (db_run d1 l) as [d2 es]. now destruct (db_getEvent d2 x).
Qed.

Definition bump (b : bool) (w : Z) : N := if b then Z.to_N (4 - w) else Z.to_N w.

(** Before the new level has won, the counter is the maximal surplus. *)
Lemma db_quiet d b l :
  (forall l1 l2, l = l1 ++ l2 -> ~ wins (negb b) l1) ->
  db_run (db_initialize d b) l =
  (mkDb (db_onOpen d) (db_onClose d) (bump b (msr (negb b) l)) b b, repeat ev_none (length l))
  /\ (msr (negb b) l <= 4)%Z.
Proof.
  induction l as [|x l IH] using rev_ind; intro H.
  - cbn. split; [|lia]. destruct b; reflexivity.
  - assert (H0: forall l1 l2, l = l1 ++ l2 -> ~ wins (negb b) l1).
    { intros l1 l2 E. apply (H l1 (l2 ++ [x])). now rewrite app_assoc, E. }
    destruct (IH H0) as [IHr IHm].
    pose proof (H (l ++ [x]) [] ltac:(now rewrite app_nil_r)) as Hx.
    rewrite wins_msr in Hx. rewrite msr_snoc in *.
    pose proof (msr_nonneg (negb b) l) as Hnn.
    rewrite db_run_snoc, IHr. split; [|lia].
    rewrite app_length; cbn [length]. rewrite repeat_app; cbn [repeat].
    unfold db_getEvent; cbn [db_counter db_onOpen db_onClose db_current db_previous].
    unfold bump, debounceMaxCount, add32, sub32, w32, two32 in *.
    destruct b, x; cbn [negb Bool.eqb] in *.
    + destruct (N.ltb_spec (Z.to_N (4 - msr false l)) 4); repeat f_equal; lia.
    + destruct (N.ltb_spec 0 (Z.to_N (4 - msr false l))); repeat f_equal; lia.
    + destruct (N.ltb_spec (Z.to_N (msr true l)) 4); repeat f_equal; lia.
    + destruct (N.ltb_spec 0 (Z.to_N (msr true l))); repeat f_equal; lia.
Qed.

Lemma db_fires d b l x :
  (forall l1 l2, l = l1 ++ l2 -> ~ wins (negb b) l1) ->
  wins (negb b) (l ++ [x]) ->
  db_run (db_initialize d b) (l ++ [x]) =
  (db_initialize d (negb b),
   repeat ev_none (length l) ++ [if b then db_onOpen d else db_onClose d]).
Proof.
  intros H W. destruct (db_quiet d b l H) as [E M].
  rewrite wins_msr, msr_snoc in W. pose proof (msr_nonneg (negb b) l) as Hnn.
  rewrite db_run_snoc, E. unfold db_getEvent; cbn [db_counter db_onOpen db_onClose db_current db_previous].
  unfold bump, debounceMaxCount in *.
  destruct b, x; cbn [negb Bool.eqb] in *; try lia.
  - destruct (N.ltb_spec 0 (Z.to_N (4 - msr false l))); [lia|].
    replace (Z.to_N (4 - msr false l)) with 0 by lia. reflexivity.
  - destruct (N.ltb_spec (Z.to_N (msr true l)) 4); [lia|].
    unfold db_initialize, debounceMaxCount. replace (Z.to_N (msr true l)) with 4 by lia. reflexivity.
Qed.

(** Invariant of every reachable state. *)
Definition db_ok (d : dbin) : Prop := db_counter d <= 4 /\ db_current d = db_previous d.

Lemma db_ok_init d b : db_ok (db_initialize d b).
Proof. destruct b; split; cbn; unfold debounceMaxCount; auto; lia. Qed.

Lemma db_ok_step d x : db_ok d -> db_ok (fst (db_getEvent d x)).
Proof.
  intros [H1 H2]. unfold db_getEvent, debounceMaxCount, add32, sub32, w32, two32 in *.
  destruct x; dlt; cbn; [| destruct (db_previous d) eqn:E | | destruct (db_previous d) eqn:E];
    split; cbn; auto; try congruence; lia.
Qed.

Lemma db_ok_run l : forall d, db_ok d -> db_ok (fst (db_run d l)).
Proof.
  induction l as [|x l IH]; intros d H; cbn; auto.
  pose proof (db_ok_step d x H). destruct (db_getEvent d x) as [d1 e]; cbn in *.
  specialize (IH d1 H0). destruct (db_run d1 l); auto.
Qed.

Lemma db_consts d x : db_onOpen (fst (db_getEvent d x)) = db_onOpen d /\
                      db_onClose (fst (db_getEvent d x)) = db_onClose d.
Proof.
  unfold db_getEvent. destruct x; destruct (_ <? _); cbn; auto;
  destruct (db_previous d); cbn; auto.
Qed.

Lemma db_consts_run l : forall d, db_onOpen (fst (db_run d l)) = db_onOpen d /\
                      db_onClose (fst (db_run d l)) = db_onClose d.
Proof.
  induction l as [|x l IH]; intros d; cbn; auto.
  pose proof (db_consts d x). destruct (db_getEvent d x) as [d1 e]; cbn in *.
  specialize (IH d1). destruct (db_run d1 l); cbn in *. destruct IH, H; split; congruence.
Qed.

Lemma db_five d b : db_ok d ->
  fst (db_run d (repeat b 5)) = db_initialize d b.
Proof.
  intros [H1 H2].
  destruct d as [oo oc c cu pr]; cbn in H1, H2. subst cu.
  assert (c = 0 \/ c = 1 \/ c = 2 \/ c = 3 \/ c = 4) as C by lia.
  destruct C as [-> | [-> | [-> | [-> | ->]]]]; destruct b, pr; reflexivity.
Qed.

Lemma db_stable d b n : db_run (db_initialize d b) (repeat b n) = (db_initialize d b, repeat ev_none n).
Proof.
  induction n; auto. cbn [repeat db_run].
  replace (db_getEvent (db_initialize d b) b) with (db_initialize d b, ev_none)
    by (destruct b; reflexivity).
  now rewrite IHn.
Qed.

Lemma db_run_app d a b :
  db_run d (a ++ b) =
  let '(d1, e1) := db_run d a in let '(d2, e2) := db_run d1 b in (d2, e1 ++ e2).
Proof.
  revert d; induction a as [|x a IH]; intro d; cbn.
  - now destruct (db_run d b).
  - destruct (db_getEvent d x) as [d1 e]. rewrite IH. destruct (db_run d1 a) as [d2 es].
    now destruct (db_run d2 b).
Qed.

Lemma db_settles_lemma d b0 hist b n :
  let d1 := fst (db_run (db_initialize d b0) hist) in
  db_getState (fst (db_run d1 (repeat b 5))) = b /\
  db_run (fst (db_run d1 (repeat b 5))) (repeat b n)
    = (fst (db_run d1 (repeat b 5)), repeat ev_none n).
Proof.
  intro d1. assert (Hok: db_ok d1) by (apply db_ok_run, db_ok_init).
  rewrite (db_five d1 b Hok). split.
  - destruct b; reflexivity.
  - rewrite db_stable. reflexivity.
Qed.

Lemma db_step_event d x : db_ok d ->
  let '(d1, e) := db_getEvent d x in
  (db_current d1 = db_current d /\ e = ev_none) \/
  (db_current d1 = negb (db_current d) /\ e = if db_current d then db_onOpen d else db_onClose d).
Proof.
  intros [H1 H2]. unfold db_getEvent. rewrite H2.
  destruct x; dlt; cbn; auto;
  destruct (db_previous d) eqn:E; cbn; auto.
Qed.

(** Alternation and agreement with the state, for every history. *)
Lemma db_alternate hist : forall d,
  db_ok d -> db_onOpen d <> ev_none -> db_onClose d <> ev_none ->
  let '(d1, es) := db_run d hist in
  (if db_current d then alternates (db_onOpen d) (db_onClose d) (changes es)
   else alternates (db_onClose d) (db_onOpen d) (changes es)) /\
  db_current d1 = xorb (db_current d) (Nat.odd (length (changes es))).
Proof.
  induction hist as [|x r IH]; intros d Hok Ho Hc; cbn.
  - destruct (db_current d); cbn; auto.
  - pose proof (db_step_event d x Hok) as S. pose proof (db_ok_step d x Hok) as Hok1.
    pose proof (db_consts d x) as [C1 C2].
    destruct (db_getEvent d x) as [d1 e]; cbn [fst] in *.
    specialize (IH d1 Hok1 ltac:(congruence) ltac:(congruence)).
    destruct (db_run d1 r) as [d2 es]. destruct IH as [IH1 IH2].
    rewrite C1, C2 in IH1.
    destruct S as [[S1 S2]|[S1 S2]].
    + subst e. cbn. rewrite S1 in *. auto.
    + assert (He: e <> ev_none) by (subst; destruct (db_current d); auto).
      unfold changes. cbn [filter]. destruct (event_eqb_spec e ev_none); [congruence|]. cbn [negb].
      fold (changes es). rewrite S1 in *. cbn [length]. rewrite Nat.odd_succ, <- Nat.negb_odd.
      split; [destruct (db_current d); cbn in *; auto|].
      rewrite IH2. destruct (db_current d), (Nat.odd _); reflexivity.
Qed.

Lemma alternates_last a b l z : alternates a b l ->
  last l z = if Nat.odd (length l) then a else match l with [] => z | _ => b end.
Proof.
  revert a b z; induction l as [|x l IH]; intros a b z H; auto.
  destruct H as [-> H]. cbn [length]. rewrite Nat.odd_succ, <- Nat.negb_odd.
  destruct l as [|y l]; [reflexivity|].
  change (last (a :: y :: l) z) with (last (y :: l) z).
  rewrite (IH _ _ z H). destruct (Nat.odd (length (y :: l))); reflexivity.
Qed.

Lemma db_last_event_lemma d b0 hist :
  db_onOpen d <> ev_none -> db_onClose d <> ev_none -> db_onOpen d <> db_onClose d ->
  let '(d1, es) := db_run (db_initialize d b0) hist in
  (if b0 then alternates (db_onOpen d) (db_onClose d) (changes es)
   else alternates (db_onClose d) (db_onOpen d) (changes es)) /\
  db_isClosed d1 = negb (db_isOpen d1) /\
  (changes es = [] -> db_isOpen d1 = b0) /\
  (changes es <> [] ->
     (db_isClosed d1 = true <-> last (changes es) ev_none = db_onOpen d) /\
     (db_isOpen d1 = true <-> last (changes es) ev_none = db_onClose d)).
Proof.
  intros Ho Hc Hd.
  assert (K: db_onOpen (db_initialize d b0) = db_onOpen d /\ db_onClose (db_initialize d b0) = db_onClose d
             /\ db_current (db_initialize d b0) = b0) by (destruct b0; cbn; auto).
  destruct K as (K1 & K2 & K3).
  pose proof (db_alternate hist (db_initialize d b0) (db_ok_init d b0)
                ltac:(congruence) ltac:(congruence)) as A.
  destruct (db_run (db_initialize d b0) hist) as [d1 es].
  rewrite K1, K2, K3 in A. destruct A as [A1 A2].
  split; [exact A1|]. unfold db_isClosed, db_isOpen. rewrite A2.
  split; [destruct b0, (Nat.odd _); reflexivity|]. split.
  - intros ->. cbn. now destruct b0.
  - intro Hne. destruct b0.
    + rewrite (alternates_last _ _ _ ev_none A1).
      destruct (changes es) eqn:E; [congruence|].
      destruct (Nat.odd _); cbn; split; split; intro; congruence.
    + rewrite (alternates_last _ _ _ ev_none A1).
      destruct (changes es) eqn:E; [congruence|].
      destruct (Nat.odd _); cbn; split; split; intro; congruence.
Qed.

Lemma myInputs_wellformed : Forall (fun d =>
   db_onOpen d <> ev_none /\ db_onClose d <> ev_none /\ db_onOpen d <> db_onClose d) myInputs.
Proof. repeat constructor; discriminate. Qed.

(** Which events of the table mean "closed / pressed". *)

Lemma myInputs_first_is_closed : Forall (fun d =>
   means_closed (db_onOpen d) = true /\ means_closed (db_onClose d) = false) myInputs.
Proof. repeat constructor. Qed.

Lemma alternates_in a b l e : alternates a b l -> In e l -> e = a \/ e = b.
Proof.
  revert a b; induction l as [|x l IH]; intros a b H I; [contradiction|].
  destruct H as [-> H]. destruct I as [->|I]; auto. destruct (IH _ _ H I); auto.
Qed.

Lemma last_in {A} (l : list A) d : l <> [] -> In (last l d) l.
Proof.
  induction l as [|x l IH]; [congruence|]. intros _. destruct l; [now left|].
  right. apply IH. discriminate.
Qed.

Lemma wiring_lemma d b0 hist : In d myInputs ->
  let '(d1, es) := db_run (db_initialize d b0) hist in
  changes es <> [] ->
  db_isClosed d1 = means_closed (last (changes es) ev_none).
Proof.
  intro Hin.
  pose proof myInputs_wellformed as W. pose proof myInputs_first_is_closed as F.
  rewrite Forall_forall in W, F. destruct (W d Hin) as (W1 & W2 & W3). destruct (F d Hin) as (F1 & F2).
  pose proof (db_last_event_lemma d b0 hist W1 W2 W3) as L.
  destruct (db_run (db_initialize d b0) hist) as [d1 es].
  destruct L as (A & C & _ & L). intro Hne. destruct (L Hne) as [L1 L2].
  assert (In (last (changes es) ev_none) (changes es)) as HI by now apply last_in.
  assert (last (changes es) ev_none = db_onOpen d \/ last (changes es) ev_none = db_onClose d) as [E|E].
  { destruct b0; destruct (alternates_in _ _ _ _ A HI); auto. }
  - rewrite E, F1. now apply L1.
  - rewrite E, F2, C. rewrite (proj2 L2 E). reflexivity.
Qed.

(** Non-vacuity: a bouncing closing switch. *)
Definition bounce : list bool :=
  [false; true; false; false; true; true; false; false; false; true; false; false; false].
Example bounce_quiet_then_fires :
  snd (db_run (db_initialize (db_make limitSwitchXMaxClosed limitSwitchXMaxOpened) true) bounce)
  = repeat ev_none 12 ++ [limitSwitchXMaxClosed].
Proof. reflexivity. Qed.
Example bounce_wins : wins false bounce /\
  (forall l1 l2, removelast bounce = l1 ++ l2 -> ~ wins false l1).
Proof.
  split.
  - rewrite wins_msr. vm_compute. discriminate.
  - assert (H: forallb (fun n => Z.ltb (msr false (firstn n (removelast bounce))) 5) (seq 0 14) = true)
      by (vm_compute; reflexivity).
    rewrite forallb_forall in H.
    intros l1 l2 E W. rewrite wins_msr in W.
    assert (L: (length l1 <= 12)%nat).
    { apply (f_equal (@length bool)) in E. rewrite app_length in E. cbn in E. lia. }
    specialize (H (length l1)). rewrite in_seq in H. specialize (H ltac:(lia)).
    rewrite E, firstn_app, Nat.sub_diag, firstn_all in H. cbn [firstn] in H. rewrite app_nil_r in H. lia.
Qed.

(** ** Port mapping *)
Lemma land_pow2_testbit a n : negb (N.land a (N.shiftl 1 n) =? 0) = N.testbit a n.
Proof.
  rewrite N.shiftl_1_l.
  destruct (N.testbit a n) eqn:E.
  - apply negb_true_iff, N.eqb_neq. intro H.
    assert (N.testbit (N.land a (2^n)) n = true) as T.
    { rewrite N.land_spec, E, N.pow2_bits_true. reflexivity. }
    rewrite H, N.bits_0 in T. discriminate.
  - apply negb_false_iff, N.eqb_eq. apply N.bits_inj. intro k.
    rewrite N.land_spec, N.bits_0. destruct (N.eq_dec n k) as [->|Hne].
    + rewrite E. reflexivity.
    + rewrite N.pow2_bits_false by auto. apply andb_false_r.
Qed.

Lemma input_pin_lemma gpioD gpioE gpioA i :
  inputs_get (inputs_sample gpioD gpioE gpioA) i =
  if i <? 12 then
    match pin_of i with
    | (PortD, n) => N.testbit gpioD n
    | (PortE, n) => N.testbit gpioE n
    | (PortA, n) => N.testbit gpioA n
    end
  else false.
Proof.
  unfold inputs_get, inputs_nmbrInputs.
  destruct (N.leb_spec 12 i); destruct (N.ltb_spec i 12); try lia; auto.
  rewrite land_pow2_testbit. unfold inputs_sample.
  rewrite N.lxor_0_r, !N.lor_spec, !N.shiftr_spec', !N.land_spec.
  assert (i = 0 \/ i = 1 \/ i = 2 \/ i = 3 \/ i = 4 \/ i = 5 \/ i = 6 \/ i = 7 \/ i = 8 \/ i = 9 \/ i = 10 \/ i = 11) as C by lia.
  repeat (destruct C as [->|C]; [cbn -[N.testbit];
    rewrite ?andb_false_r, ?andb_true_r, ?orb_false_r; try reflexivity|]);
  try (subst i; cbn -[N.testbit]).
  all: cbv -[andb orb N.testbit]; repeat match goal with
   | |- context [N.testbit (N.pos ?p) ?n] => let b := eval vm_compute in (N.testbit (N.pos p) n) in
        change (N.testbit (N.pos p) n) with b
   end; rewrite ?andb_false_r, ?andb_true_r, ?orb_false_r, ?orb_false_l; try reflexivity.
Qed.

Lemma pin_of_inj i j : i < 12 -> j < 12 -> pin_of i = pin_of j -> i = j.
Proof.
  intros Hi Hj. unfold pin_of.
  repeat match goal with |- context [if ?c then _ else _] => destruct c eqn:? end;
  intro E; inversion E; lia.
Qed.

Lemma debounce_fires_lemma : forall d b l x,
  (forall l1 l2, l = l1 ++ l2 -> ~ wins (negb b) l1) ->
  (snd (db_run (db_initialize d b) l) = repeat ev_none (length l) /\
   db_getState (fst (db_run (db_initialize d b) l)) = b) /\
  (wins (negb b) (l ++ [x]) ->
   db_run (db_initialize d b) (l ++ [x]) =
     (db_initialize d (negb b),
      repeat ev_none (length l) ++ [if b then db_onOpen d else db_onClose d])).
Proof.
  intros d b l x H. split.
  - destruct (db_quiet d b l H) as [E _]. rewrite E. split; reflexivity.
  - intro W. now apply db_fires.
Qed.

Lemma debounce_silent_lemma : forall d b n,
  db_run (db_initialize d b) (repeat b n) = (db_initialize d b, repeat ev_none n).
Proof.
  intros d b n. induction n as [|n IH]; [reflexivity|]. cbn [repeat db_run].
  replace (db_getEvent (db_initialize d b) b) with (db_initialize d b, ev_none)
    by (destruct d, b; reflexivity).
  now rewrite IH.
Qed.
