Require Import List Arith NArith ZArith Bool Lia ZifyBool ZifyNat ZifyN.
From Verif Require Import Base BaseProofs EventProofs HostModel HostSpec.
Import ListNotations.
Open Scope N_scope.
Ltac Zify.zify_post_hook ::= Z.div_mod_to_equations.

Definition rx_pending (h : host) := contents 0 (rx_arr h) 256 (rx_head h) (rx_level h).
Definition tx_pending (h : host) := contents 0 (tx_arr h) 256 (tx_head h) (tx_level h).
Definition nl (l : list N) : N := N.of_nat (count_occ N.eq_dec l LF).

Definition host_inv (h : host) : Prop :=
  length (rx_arr h) = 256%nat /\ rx_head h < 256 /\ rx_level h <= 256 /\
  rx_lines h = nl (rx_pending h) /\
  length (tx_arr h) = 256%nat /\ tx_head h < 256 /\ tx_level h <= 256 /\
  (0 < tx_level h -> tx_tie h = true).

Definition host_ref (h : host) (s : hspec) : Prop :=
  host_inv h /\ hs_rx s = rx_pending h /\ hs_tx s = tx_pending h.

Lemma nl_app a b : nl (a ++ b) = nl a + nl b.
Proof. unfold nl. rewrite count_occ_app. lia. Qed.
Lemma nl_cons x l : nl (x :: l) = (if x =? LF then 1 else 0) + nl l.
Proof.
  unfold nl. cbn [count_occ]. destruct (N.eq_dec x LF); destruct (N.eqb_spec x LF); try congruence; lia.
Qed.
Lemma nl_bound l : nl l <= N.of_nat (length l).
Proof. unfold nl. pose proof (count_occ_bound N.eq_dec LF l). lia. Qed.

Lemma first_line_none l : first_line l = None <-> nl l = 0.
Proof.
  induction l as [|b r IH]; [split; auto|].
  rewrite nl_cons. cbn. destruct (b =? LF); [split; [discriminate|lia]|].
  destruct (first_line r) as [[m t]|]; split; intro H; try discriminate; auto.
  - exfalso. assert (nl r = 0) by lia. apply IH in H0. discriminate.
  - rewrite (proj1 IH eq_refl). reflexivity.
Qed.

Lemma first_line_split l m r : first_line l = Some (m, r) ->
  l = m ++ r /\ exists t, m = t ++ [LF] /\ ~ In LF t.
Proof.
  revert m r; induction l as [|b l IH]; intros m r H; [discriminate|].
  cbn in H. destruct (N.eqb_spec b LF).
  - inversion H; subst. split; auto. exists []. auto.
  - destruct (first_line l) as [[m' r']|] eqn:E; [|discriminate]. inversion H; subst.
    destruct (IH _ _ eq_refl) as (E1 & t & E2 & E3). subst. split; auto.
    exists (b :: t). split; auto. intros [?|?]; auto.
Qed.

Ltac small := rewrite ?add32_small, ?sub32_small by (unfold two32; lia).

(** getMessage on a consistent receiver. *)
Lemma getMessage_loop_spec fuel : forall h,
  host_inv h -> (N.to_nat (rx_level h) < fuel)%nat ->
  let '(h', m) := getMessage_loop fuel h in
  host_inv h' /\ tx_pending h' = tx_pending h /\
  match first_line (rx_pending h) with
  | Some (l, rest) => m = l ++ [0] /\ rx_pending h' = rest
  | None => m = rx_pending h ++ [0] /\ rx_pending h' = []
  end.
Proof.
  induction fuel as [|f IH]; intros h Hi Hf; [lia|].
  destruct Hi as (L1 & H1 & V1 & N1 & T).
  cbn [getMessage_loop].
  destruct (N.ltb_spec 0 (rx_level h)) as [Hp|Hp].
  - pose proof (contents_pop 0 (rx_arr h) 256 (rx_head h) (rx_level h)
       ltac:(rewrite L1; reflexivity) H1 Hp) as C.
    fold (rx_pending h) in C.
    set (b := rget 0 (rx_arr h) (rx_head h)) in *.
    unfold rxBufferLength.
    assert (M: (rx_head h + 1) mod 256 < 256) by (apply N.mod_lt; discriminate).
    pose proof (nl_bound (rx_pending h)) as NB. unfold rx_pending in NB at 2.
    rewrite contents_length in NB.
    rewrite !(add32_small (rx_head h)), !(sub32_small (rx_level h)) by (unfold two32; lia).
    destruct (N.eqb_spec b LF) as [E|E].
    + assert (K: rx_pending h = b :: contents 0 (rx_arr h) 256 ((rx_head h + 1) mod 256) (rx_level h - 1)) by exact C.
      rewrite K. cbn [first_line]. rewrite (proj2 (N.eqb_eq b LF) E).
      rewrite K, nl_cons in N1, NB. rewrite (proj2 (N.eqb_eq b LF) E) in N1, NB.
      cbn [rx_arr rx_head rx_level rx_lines tx_arr tx_head tx_level tx_tie].
      split; [|split; [reflexivity|split; [now rewrite E|reflexivity]]].
      unfold host_inv, rx_pending. cbn [rx_arr rx_head rx_level rx_lines tx_arr tx_head tx_level tx_tie].
      rewrite sub32_small by (unfold two32; lia).
      repeat split; auto; try lia; apply T.
    + set (h1 := mkHost _ _ _ _ _ _ _ _).
      assert (Hi1: host_inv h1).
      { unfold host_inv, h1, rx_pending; cbn [rx_arr rx_head rx_level rx_lines tx_arr tx_head tx_level tx_tie].
        rewrite C, nl_cons in N1. destruct (N.eqb_spec b LF); [congruence|].
        repeat split; auto; try lia; apply T. }
      specialize (IH h1 Hi1 ltac:(cbn; lia)).
      destruct (getMessage_loop f h1) as [h2 r].
      destruct IH as (I2 & T2 & R2). split; auto. split; [rewrite T2; reflexivity|].
      rewrite C. cbn [first_line]. destruct (N.eqb_spec b LF); [congruence|].
      change (contents 0 (rx_arr h) 256 ((rx_head h + 1) mod 256) (rx_level h - 1)) with (rx_pending h1).
      destruct (first_line (rx_pending h1)) as [[l rest]|]; destruct R2 as [-> ->]; auto.
  - assert (E0: rx_pending h = []). { unfold rx_pending. replace (rx_level h) with 0 by lia. reflexivity. }
    rewrite E0. cbn. repeat split; auto; try apply T.
Qed.

Lemma hasMessage_spec h : host_inv h ->
  hasMessage h = match first_line (rx_pending h) with Some _ => true | None => false end.
Proof.
  intros (_ & _ & _ & N1 & _). unfold hasMessage. rewrite N1.
  destruct (first_line (rx_pending h)) eqn:E.
  - apply N.ltb_lt. assert (nl (rx_pending h) <> 0); [|lia].
    intro K. apply first_line_none in K. congruence.
  - apply first_line_none in E. rewrite E. reflexivity.
Qed.

(** The copy loop does not look at the interrupt-enable bit, so its invariant
    leaves that bit out. *)
Definition tx_ok (h : host) : Prop :=
  length (tx_arr h) = 256%nat /\ tx_head h < 256 /\ tx_level h <= 256.

Lemma tx_copy_spec m : forall h,
  tx_ok h -> tx_level h + N.of_nat (length m) <= 256 ->
  let h' := tx_copy h m in
  rx_arr h' = rx_arr h /\ rx_head h' = rx_head h /\ rx_level h' = rx_level h /\ rx_lines h' = rx_lines h /\
  tx_pending h' = tx_pending h ++ m /\ tx_ok h'.
Proof.
  induction m as [|b m IH]; intros h (L2&H2&V2) Hb; cbn [tx_copy].
  - rewrite app_nil_r. repeat split; auto.
  - cbn [length] in Hb. unfold txBufferLength.
    rewrite !add32_small by (unfold two32; lia).
    match goal with |- context [tx_copy ?x m] => set (h1 := x) end.
    assert (O1: tx_ok h1).
    { unfold tx_ok, h1; cbn [tx_arr tx_head tx_level]. rewrite rset_length. repeat split; auto; lia. }
    specialize (IH h1 O1 ltac:(cbn [tx_level h1]; lia)).
    cbn zeta in IH. destruct IH as (A&B&C&D&E&F).
    split; [exact A|]. split; [exact B|]. split; [exact C|]. split; [exact D|].
    split; [|exact F]. rewrite E. unfold tx_pending, h1; cbn [tx_arr tx_head tx_level].
    rewrite contents_push; auto; [|rewrite L2; reflexivity|lia]. now rewrite <- app_assoc.
Qed.

Lemma host_step_refines h s o :
  host_ref h s ->
  snd (host_step h o) = snd (hs_step s o) /\ host_ref (fst (host_step h o)) (fst (hs_step s o)).
Proof.
  intros (Hi & Er & Et). pose proof Hi as (L1&H1&V1&N1&L2&H2&V2&T2).
  assert (Lr: length (hs_rx s) = N.to_nat (rx_level h)) by (rewrite Er; apply contents_length).
  assert (Lt: length (hs_tx s) = N.to_nat (tx_level h)) by (rewrite Et; apply contents_length).
  destruct o as [b| |m|]; cbn [host_step hs_step].
  - cbn [fst snd]. split; auto. unfold rxReady, rxBufferLength.
    destruct (N.ltb_spec (rx_level h) 256).
    + replace (length (hs_rx s) <? 256)%nat with true by lia.
      rewrite !(add32_small _ (rx_level h)), !(add32_small (rx_level h)) by (unfold two32; lia).
      assert (P: contents 0 (rset (rx_arr h) ((rx_head h + rx_level h) mod 256) b) 256 (rx_head h) (rx_level h + 1)
                 = rx_pending h ++ [b]).
      { apply contents_push; auto. rewrite L1; reflexivity. }
      pose proof (nl_bound (rx_pending h)) as NB. unfold rx_pending in NB at 2. rewrite contents_length in NB.
      unfold host_ref, host_inv, rx_pending, tx_pending; cbn [rx_arr rx_head rx_level rx_lines tx_arr tx_head tx_level tx_tie hs_rx hs_tx].
      rewrite P, nl_app, nl_cons, rset_length, Er.
      unfold nl at 2. cbn [count_occ].
      repeat split; auto; try lia.
      destruct (b =? LF); rewrite ?add32_small by (unfold two32; lia); rewrite N1; lia.
    + replace (length (hs_rx s) <? 256)%nat with false by lia. split; auto.
  - rewrite hasMessage_spec by auto. rewrite Er.
    pose proof (getMessage_loop_spec (S (N.to_nat (rx_level h))) h Hi ltac:(lia)) as G.
    fold (getMessage h) in G.
    destruct (first_line (rx_pending h)) as [[l rest]|].
    + destruct (getMessage h) as [h' m]. destruct G as (I & T & -> & R).
      cbn. split; auto. split; auto. split; cbn; auto. now rewrite T.
    + cbn. split; auto. split; auto.
  - cbn [fst snd]. split; auto. unfold sendMessage, txBufferLength.
    rewrite sub32_small by (unfold two32; lia).
    destruct (N.leb_spec (N.of_nat (length (cstr m))) (256 - tx_level h)).
    + replace (length (hs_tx s) + length (cstr m) <=? 256)%nat with true by lia.
      pose proof (tx_copy_spec (cstr m) h ltac:(repeat split; auto) ltac:(lia)) as TC.
      cbn zeta in TC. destruct TC as (A&B&C&D&E&F1&F2&F3).
      split; [|split; cbn [hs_rx hs_tx]].
      * unfold host_inv, rx_pending; cbn [rx_arr rx_head rx_level rx_lines tx_arr tx_head tx_level tx_tie].
        rewrite A, B, C, D. repeat split; auto.
      * rewrite Er. unfold rx_pending; cbn. now rewrite A, B, C.
      * rewrite Et, <- E. reflexivity.
    + replace (length (hs_tx s) + length (cstr m) <=? 256)%nat with false by lia.
      repeat split; auto.
  - destruct (tx_tie h) eqn:Tie.
    + unfold txReady. destruct (N.ltb_spec 0 (tx_level h)).
      * assert (C := contents_pop 0 (tx_arr h) 256 (tx_head h) (tx_level h) ltac:(rewrite L2; reflexivity) H2 H).
        fold (tx_pending h) in C. rewrite C in Et. rewrite Et. cbn [fst snd].
        split; auto. unfold txBufferLength.
        rewrite add32_small, sub32_small by (unfold two32; lia).
        split; [|split; [exact Er|reflexivity]].
        unfold host_inv, rx_pending; cbn [rx_arr rx_head rx_level rx_lines tx_arr tx_head tx_level tx_tie].
        repeat split; auto; try lia.
      * assert (E0: tx_pending h = []). { unfold tx_pending. replace (tx_level h) with 0 by lia. reflexivity. }
        rewrite Et, E0. cbn. split; auto. split; [|split; cbn; auto; congruence].
        unfold host_inv, rx_pending; cbn [rx_arr rx_head rx_level rx_lines tx_arr tx_head tx_level tx_tie].
        repeat split; auto; lia.
    + assert (E0: tx_level h = 0). { destruct (N.eq_dec (tx_level h) 0); auto. assert (false = true) by (apply T2; lia). discriminate. }
      assert (E1: hs_tx s = []). { rewrite Et. unfold tx_pending. now rewrite E0. }
      rewrite E1. cbn. split; auto. split; auto.
Qed.

Lemma host_run_refines ops : forall h s,
  host_ref h s ->
  snd (host_run h ops) = snd (hs_run s ops) /\ host_ref (fst (host_run h ops)) (fst (hs_run s ops)).
Proof.
  induction ops as [|o r IH]; intros h s H; cbn; auto.
  destruct (host_step_refines h s o H) as [E R].
  destruct (host_step h o) as [h1 x], (hs_step s o) as [s1 y]; cbn in *.
  destruct (IH h1 s1 R) as [E2 R2].
  destruct (host_run h1 r), (hs_run s1 r); cbn in *. subst; auto.
Qed.

Lemma host_init_ref h : length (rx_arr h) = 256%nat -> length (tx_arr h) = 256%nat ->
  host_ref (host_initialize h) (mkHS [] []).
Proof. intros A B. repeat split; cbn; auto; try lia. Qed.

(** *** C07 *)
(** No byte arrives while 256 are pending, phrased on the specification. *)

Lemma hs_lines ops : forall s, Forall is_line (msgs (snd (hs_run s ops))).
Proof.
  induction ops as [|o r IH]; intro s; cbn; [constructor|].
  destruct (hs_step s o) as [s1 x] eqn:E. specialize (IH s1).
  destruct (hs_run s1 r) as [s2 xs]. cbn in *.
  destruct x; cbn; auto. constructor; auto.
  destruct o as [b| |m0|]; cbn in E.
  - inversion E.
  - destruct (first_line (hs_rx s)) as [[l rest]|] eqn:F; inversion E; subst.
    destruct (first_line_split _ _ _ F) as (_ & t & -> & Hn).
    exists t. rewrite <- app_assoc. auto.
  - inversion E.
  - destruct (hs_tx s); inversion E.
Qed.

Lemma hs_conserve ops : forall s,
  never_full s ops ->
  hs_rx s ++ received ops =
  concat (map body (msgs (snd (hs_run s ops)))) ++ hs_rx (fst (hs_run s ops)).
Proof.
  induction ops as [|o r IH]; intros s H; cbn; [now rewrite app_nil_r|].
  destruct H as [H1 H2]. specialize (IH _ H2).
  destruct (hs_step s o) as [s1 x] eqn:E. cbn [fst] in *.
  destruct (hs_run s1 r) as [s2 xs]. cbn [fst snd] in *.
  destruct o as [b| |m0|]; cbn [hs_step] in E.
  - cbn. replace (length (hs_rx s) <? 256)%nat with true in E by lia. inversion E; subst.
    cbn in *. rewrite <- app_assoc in IH. exact IH.
  - cbn. destruct (first_line (hs_rx s)) as [[l rest]|] eqn:F; inversion E; subst; cbn in *; auto.
    destruct (first_line_split _ _ _ F) as (-> & _). unfold body at 1.
    rewrite removelast_last, <- !app_assoc. f_equal. exact IH.
  - cbn. inversion E; subst. cbn in *. destruct (_ <=? _)%nat in *; exact IH.
  - cbn. destruct (hs_tx s); inversion E; subst; cbn in *; exact IH.
Qed.

Lemma rx_roundtrip_lemma h ops :
  length (rx_arr h) = 256%nat -> length (tx_arr h) = 256%nat ->
  never_full (mkHS [] []) ops ->
  let '(h', xs) := host_run (host_initialize h) ops in
  exists pending,
    received ops = concat (map body (msgs xs)) ++ pending /\
    (length pending <= 256)%nat /\
    Forall is_line (msgs xs) /\
    (hasMessage h' = true <-> In LF pending).
Proof.
  intros A B NF.
  pose proof (host_run_refines ops _ _ (host_init_ref h A B)) as [E R].
  destruct (host_run (host_initialize h) ops) as [h' xs]. cbn [fst snd] in *.
  exists (hs_rx (fst (hs_run (mkHS [] []) ops))). subst xs.
  destruct R as (Hi & Er & _).
  split; [|split; [|split]].
  - apply (hs_conserve ops (mkHS [] []) NF).
  - rewrite Er. unfold rx_pending. rewrite contents_length. destruct Hi as (?&?&?&_). lia.
  - apply hs_lines.
  - rewrite hasMessage_spec by auto. rewrite <- Er.
    set (p := hs_rx _). destruct (first_line p) as [[l rest]|] eqn:F.
    + split; auto. intros _. destruct (first_line_split _ _ _ F) as (-> & t & -> & _).
      apply in_or_app; left. apply in_or_app; right. now left.
    + split; [discriminate|]. intro I. apply first_line_none in F.
      exfalso. unfold nl in F. assert (count_occ N.eq_dec p LF = 0)%nat as K by lia.
      apply (count_occ_not_In N.eq_dec) in K. auto.
Qed.

(** *** C08: the receiver can get stuck for ever. *)
Lemma hs_stuck ops : forall s,
  length (hs_rx s) = 256%nat -> ~ In LF (hs_rx s) ->
  msgs (snd (hs_run s ops)) = [] /\ hs_rx (fst (hs_run s ops)) = hs_rx s.
Proof.
  induction ops as [|o r IH]; intros s L NI; cbn; auto.
  assert (S: hs_rx (fst (hs_step s o)) = hs_rx s /\ forall m, snd (hs_step s o) <> HMsg m).
  { destruct o as [b| |m0|]; cbn.
    - rewrite L. cbn. split; auto; discriminate.
    - assert (F: first_line (hs_rx s) = None).
      { apply first_line_none. unfold nl. rewrite (proj1 (count_occ_not_In N.eq_dec _ _) NI). reflexivity. }
      rewrite F. split; auto; discriminate.
    - split; [destruct (_ <=? _)%nat; auto|discriminate].
    - destruct (hs_tx s); cbn; split; auto; discriminate. }
  destruct (hs_step s o) as [s1 x]. cbn [fst snd] in S. destruct S as [S1 S2].
  specialize (IH s1 ltac:(now rewrite S1) ltac:(now rewrite S1)).
  destruct (hs_run s1 r) as [s2 xs]. cbn [fst snd] in *. destruct IH as [I1 I2].
  split; [|congruence]. destruct x; cbn; auto. now destruct (S2 m).
Qed.


Lemma rx_stuck_lemma :
  forall later,
    msgs (snd (host_run (fst (host_run (host_initialize host_zero) flood)) later)) = [].
Proof.
  intro later.
  pose proof (host_run_refines flood _ _ (host_init_ref host_zero eq_refl eq_refl)) as [_ R].
  pose proof (host_run_refines later _ _ R) as [E2 _].
  rewrite E2. apply hs_stuck.
  - vm_compute. reflexivity.
  - intro H. vm_compute in H. repeat (destruct H as [H|H]; [discriminate|]). exact H.
Qed.

(** What does hold: a pending line is always delivered by the next poll. *)
Lemma rx_progress_lemma h ops :
  length (rx_arr h) = 256%nat -> length (tx_arr h) = 256%nat ->
  let h' := fst (host_run (host_initialize h) ops) in
  hasMessage h' = true -> exists m, snd (host_step h' HPoll) = HMsg m /\ is_line m /\ (length m <= 257)%nat.
Proof.
  intros A B h' Hm.
  pose proof (host_run_refines ops _ _ (host_init_ref h A B)) as [E R].
  fold h' in R. set (s := fst (hs_run (mkHS [] []) ops)) in *.
  pose proof (host_step_refines h' s HPoll R) as [E2 _]. rewrite E2. cbn [hs_step].
  destruct R as (Hi & Er & _). rewrite hasMessage_spec in Hm by auto.
  rewrite Er. destruct (first_line (rx_pending h')) as [[l rest]|] eqn:F; [|discriminate].
  exists (l ++ [0]). split; auto. destruct (first_line_split _ _ _ F) as (E3 & t & E4 & NI). split.
  - exists t. subst l. rewrite <- app_assoc. auto.
  - assert (length (rx_pending h') <= 256)%nat.
    { unfold rx_pending. rewrite contents_length. destruct Hi as (?&?&?&_). lia. }
    rewrite E3, app_length in H. rewrite app_length. cbn. lia.
Qed.

(** *** C09 *)

Lemma hs_tx_conserve ops : forall s,
  hs_tx s ++ accepted_tx (length (hs_tx s)) ops =
  wire (snd (hs_run s ops)) ++ hs_tx (fst (hs_run s ops)).
Proof.
  induction ops as [|o r IH]; intro s; cbn [accepted_tx hs_run]; [cbn; now rewrite app_nil_r|].
  specialize (IH (fst (hs_step s o))).
  destruct (hs_step s o) as [s1 x] eqn:E. cbn [fst] in IH.
  destruct (hs_run s1 r) as [s2 xs]. cbn [fst snd] in *.
  destruct o as [b| |m|]; cbn [hs_step] in E.
  - inversion E; subst. cbn. destruct (_ <? _)%nat in IH; cbn in IH; exact IH.
  - destruct (first_line (hs_rx s)) as [[l rest]|]; inversion E; subst; cbn in *; exact IH.
  - inversion E; subst. cbn [wire flat_map app]. fold (wire xs).
    destruct (length (hs_tx s) + length (cstr m) <=? 256)%nat; cbn [hs_tx] in IH; auto.
    rewrite app_length, <- app_assoc in IH. exact IH.
  - destruct (hs_tx s) as [|b q] eqn:Q; inversion E; subst; cbn in *.
    + rewrite Q in IH. exact IH.
    + now rewrite IH.
Qed.

Lemma tx_lemma h ops :
  length (rx_arr h) = 256%nat -> length (tx_arr h) = 256%nat ->
  let '(h', xs) := host_run (host_initialize h) ops in
  exists queued,
    accepted_tx 0 ops = wire xs ++ queued /\ (length queued <= 256)%nat /\
    snd (host_run h' (repeat HTx (length queued))) = map HByte queued.
Proof.
  intros A B.
  pose proof (host_run_refines ops _ _ (host_init_ref h A B)) as [E R].
  destruct (host_run (host_initialize h) ops) as [h' xs]. cbn [fst snd] in *. subst xs.
  set (s := fst (hs_run (mkHS [] []) ops)) in *.
  exists (hs_tx s). split; [|split].
  - apply (hs_tx_conserve ops (mkHS [] [])).
  - destruct R as ((_&_&_&_&_&_&V&_) & _ & Et). rewrite Et. unfold tx_pending. rewrite contents_length. lia.
  - pose proof (host_run_refines (repeat HTx (length (hs_tx s))) _ _ R) as [E2 _]. rewrite E2.
    generalize (hs_rx s). clear. destruct s as [rx tx]; cbn. intros _. clear -tx.
    induction tx as [|b r IH]; cbn; auto.
    destruct (hs_run (mkHS rx r) (repeat HTx (length r))). cbn in *. now rewrite IH.
Qed.

Lemma tx_rest_lemma h ops :
  length (rx_arr h) = 256%nat -> length (tx_arr h) = 256%nat ->
  let '(h', xs) := host_run (host_initialize h) ops in
  forall n, (256 < n)%nat -> tx_tie (fst (host_run h' (repeat HTx n))) = false.
Proof.
  intros A B.
  pose proof (host_run_refines ops _ _ (host_init_ref h A B)) as [E R].
  destruct (host_run (host_initialize h) ops) as [h' xs]. cbn [fst snd] in *. clear E.
  set (s := fst (hs_run (mkHS [] []) ops)) in *. clearbody s.
  assert (L : (length (hs_tx s) <= 256)%nat).
  { destruct R as ((_&_&_&_&_&_&V&_) & _ & Et). rewrite Et. unfold tx_pending. rewrite contents_length. lia. }
  intros n N. assert (G : (length (hs_tx s) < n)%nat) by lia. clear N L.
  revert h' s R G. induction n as [|n IH]; intros h' s R G; [lia|].
  cbn [repeat host_run].
  pose proof (host_step_refines h' s HTx R) as [_ R1].
  destruct (host_step h' HTx) as [h1 x] eqn:E1. destruct (host_run h1 (repeat HTx n)) as [h2 xs2] eqn:E2.
  cbn [fst] in *. change h2 with (fst (h2, xs2)). rewrite <- E2.
  destruct (tx_tie h') eqn:T.
  - destruct n as [|n].
    + cbn [repeat host_run] in E2 |- *. cbn [fst]. destruct s as [rx [|b q]]; cbn [hs_tx length] in G; [|lia].
      cbn [host_step] in E1. rewrite T in E1. unfold txReady in E1. destruct R as (_ & _ & Et). cbn [hs_tx] in Et.
      assert (LV : tx_level h' = 0).
      { apply (f_equal (@length _)) in Et. unfold tx_pending in Et. rewrite contents_length in Et. cbn [length] in Et. lia. }
      rewrite LV in E1. change (0 <? 0) with false in E1. cbn in E1. injection E1 as <- _. reflexivity.
    + assert (X : (length (hs_tx (fst (hs_step s HTx))) < S n)%nat).
      { cbn [hs_step]. destruct s as [rx [|b q]]; cbn [hs_tx fst length] in *; lia. }
      exact (IH h1 _ R1 X).
  - assert (K : forall k g, tx_tie g = false -> tx_tie (fst (host_run g (repeat HTx k))) = false).
    { induction k as [|k IK]; intros g TG; [exact TG|]. cbn [repeat host_run host_step]. rewrite TG.
      specialize (IK g TG). destruct (host_run g (repeat HTx k)). exact IK. }
    apply K. cbn [host_step] in E1. rewrite T in E1. injection E1 as <- _. exact T.
Qed.

(** *** The receive race inside getMessage (statement level). *)

(** "A\n" pending; while the main program is between updating head and
    decrementing level, 'B' is received. *)

Lemma rx_race_lemma :
  let g := g_run (g_start [65; LF] 1) race_schedule in
  g_pc g = GDone /\ g_dest g = [65; LF; 0] /\
  contents 0 (g_arr g) 256 (g_head g) (g_level g) = [0].
Proof. vm_compute. repeat split; reflexivity. Qed.

(** Non-vacuity of the round trip: two lines and an unfinished one. *)
Example rx_example :
  never_full (mkHS [] []) [HRx 71; HRx 10; HPoll; HRx 88; HPoll; HRx 10; HRx 65; HPoll] /\
  msgs (snd (host_run (host_initialize host_zero)
     [HRx 71; HRx 10; HPoll; HRx 88; HPoll; HRx 10; HRx 65; HPoll])) = [[71; 10; 0]; [88; 10; 0]].
Proof. split; [cbn; repeat split; lia|vm_compute; reflexivity]. Qed.
Example tx_example :
  accepted_tx 0 [HSend [72;105;0]; HTx; HSend (repeat 65 256); HSend (repeat 66 255); HTx]
    = [72;105] ++ repeat 66 255 /\
  wire (snd (host_run (host_initialize host_zero)
     [HSend [72;105;0]; HTx; HSend (repeat 65 256); HSend (repeat 66 255); HTx])) = [72;105].
Proof. split; vm_compute; reflexivity. Qed.

Lemma host_refines_lemma : forall h ops,
  length (rx_arr h) = 256%nat -> length (tx_arr h) = 256%nat ->
  snd (host_run (host_initialize h) ops) = snd (hs_run (mkHS [] []) ops).
Proof. intros h ops A B. apply host_run_refines. now apply host_init_ref. Qed.

Lemma rx_recovers_refuted_lemma :
  exists received_so_far, forall later,
  msgs (snd (host_run (fst (host_run (host_initialize host_zero) received_so_far)) later)) = [].
Proof. exists flood. exact rx_stuck_lemma. Qed.

Lemma rx_race_refuted_lemma :
  exists schedule,
  let g := g_run (g_start [65; LF] 1) schedule in
  In (GIrq 66) schedule /\ g_pc g = GDone /\ g_dest g = [65; LF; 0] /\
  contents 0 (g_arr g) 256 (g_head g) (g_level g) = [0].
Proof. exists race_schedule. split; [cbn; auto|exact rx_race_lemma]. Qed.
