Require Import List Arith NArith Bool Lia ZifyBool ZifyNat ZifyN ZArith.
From Verif Require Import Base BaseProofs EventModel EventSpec.
Import ListNotations.
Open Scope N_scope.
Ltac Zify.zify_post_hook ::= Z.div_mod_to_equations.

Definition eb_pending (b : evbuf) : list event :=
  contents ev_none (eb_arr b) eb_length (eb_head b) (eb_level b).

Definition eb_ok (b : evbuf) : Prop :=
  length (eb_arr b) = 16%nat /\ eb_head b < 16 /\ eb_level b <= 16.

Definition eb_refines (b : evbuf) (q : qspec) : Prop :=
  eb_ok b /\ q_pending q = eb_pending b /\
  q_error q = eb_lastError b /\ q_high q = eb_levelMax b.

Lemma event_eqb_spec a b : reflect (a = b) (event_eqb a b).
Proof. unfold event_eqb; destruct event_eq_dec; now constructor. Qed.

Lemma eb_pending_length b : length (eb_pending b) = N.to_nat (eb_level b).
Proof. apply contents_length. Qed.

Lemma push_none_step q : q_step q (EbPush ev_none) = (q, OutUnit).
Proof. reflexivity. Qed.

Lemma push_some_step q e : e <> ev_none -> q_step q (EbPush e) =
      if (length (q_pending q) <? 16)%nat
      then (mkQ (q_pending q ++ [e]) (q_error q)
                (N.max (q_high q) (N.of_nat (S (length (q_pending q))))), OutUnit)
      else (mkQ (q_pending q) eventBufferOverflow (q_high q), OutUnit).
Proof. destruct e; intro H; try reflexivity; congruence. Qed.

Lemma add32_small a b : a + b < two32 -> add32 a b = a + b.
Proof. apply w32_small. Qed.

Lemma sub32_small a b : b <= a -> a < two32 -> sub32 a b = a - b.
Proof. intros; unfold sub32, w32, two32 in *; lia. Qed.

Lemma eb_step_refines b q o :
  eb_refines b q ->
  snd (eb_step b o) = snd (q_step q o) /\ eb_refines (fst (eb_step b o)) (fst (q_step q o)).
Proof.
  intros ((Hlen & Hh & Hl) & Hp & He & Hm).
  assert (Hpl: length (q_pending q) = N.to_nat (eb_level b)) by now rewrite Hp, eb_pending_length.
  destruct o.
  - cbn. split; auto. repeat split; cbn; auto; lia.
  - destruct (event_eq_dec e ev_none) as [->|Hne].
    { cbn. split; auto. repeat split; auto. }
    rewrite push_some_step by auto.
    cbn [eb_step]. unfold eb_push.
    destruct (event_eqb_spec ev_none e); [congruence|].
    unfold eb_length.
    destruct (N.ltb_spec (eb_level b) 16).
    + replace (length (q_pending q) <? 16)%nat with true by lia.
      cbn [fst snd]. split; auto.
      rewrite !add32_small by (unfold two32; lia).
      repeat split; cbn; auto.
      * now rewrite rset_length.
      * lia.
      * unfold eb_pending; cbn. rewrite contents_push; auto.
        -- now rewrite Hp.
        -- rewrite Hlen. reflexivity.
      * rewrite Hpl, Hm. destruct (N.ltb_spec (eb_levelMax b) (eb_level b + 1)); lia.
    + replace (length (q_pending q) <? 16)%nat with false by lia.
      cbn. split; auto. repeat split; auto.
  - cbn [eb_step]. unfold eb_pop.
    destruct (N.ltb_spec 0 (eb_level b)).
    + assert (Hc := contents_pop ev_none (eb_arr b) eb_length (eb_head b) (eb_level b)
                ltac:(rewrite Hlen; reflexivity) Hh H).
      unfold eb_pending in Hp. rewrite Hc in Hp.
      unfold q_step. rewrite Hp. cbn [fst snd]. split; auto.
      rewrite add32_small, sub32_small by (unfold two32; lia).
      repeat split; cbn; auto; try lia.
      apply N.mod_lt. discriminate.
    + assert (eb_level b = 0) as E by lia.
      assert (q_pending q = []) as E2. { rewrite Hp. unfold eb_pending. now rewrite E. }
      unfold q_step. rewrite E2. cbn. split; auto.
      repeat split; cbn; auto; try lia. unfold eb_pending; cbn. now rewrite E.
  - cbn. split.
    + unfold eb_hasEvents. destruct (q_pending q) eqn:E; cbn in *; f_equal; lia.
    + repeat split; auto.
  - cbn. split; [now rewrite Hm|]. repeat split; auto.
  - cbn. split; [now rewrite He|]. repeat split; auto.
Qed.

Lemma eb_run_refines b q ops :
  eb_refines b q ->
  snd (eb_run b ops) = snd (q_run q ops) /\ eb_refines (fst (eb_run b ops)) (fst (q_run q ops)).
Proof.
  revert b q; induction ops as [|o r IH]; intros b q H; cbn; auto.
  destruct (eb_step_refines b q o H) as [E R].
  destruct (eb_step b o) as [b1 x], (q_step q o) as [q1 y]; cbn in *.
  destruct (IH b1 q1 R) as [E2 R2].
  destruct (eb_run b1 r), (q_run q1 r); cbn in *. subst; auto.
Qed.

(** After initialize(), from any array contents. *)
Lemma eb_init_refines b : length (eb_arr b) = 16%nat -> eb_refines (eb_initialize b) q_empty.
Proof. intro; repeat split; cbn; auto; lia. Qed.

Lemma eventbuffer_refines_queue b ops :
  length (eb_arr b) = 16%nat ->
  snd (eb_run (eb_initialize b) ops) = snd (q_run q_empty ops).
Proof. intro H; apply eb_run_refines, eb_init_refines, H. Qed.

Lemma eb_run_app b o1 o2 :
  eb_run b (o1 ++ o2) =
  let '(b1, x1) := eb_run b o1 in let '(b2, x2) := eb_run b1 o2 in (b2, x1 ++ x2).
Proof.
  revert b; induction o1 as [|o r IH]; intro b; cbn.
  - destruct (eb_run b o2); reflexivity.
  - destruct (eb_step b o) as [b1 x]. rewrite IH.
    destruct (eb_run b1 r). destruct (eb_run e o2). reflexivity.
Qed.

(** FIFO delivery over the abstract queue, then lifted. *)
Lemma q_no_none q : Forall (fun e => e <> ev_none) (q_pending q) ->
  forall o, Forall (fun e => e <> ev_none) (q_pending (fst (q_step q o))).
Proof.
  intros H o; destruct o; try (cbn; auto; fail).
  - destruct (event_eq_dec e ev_none) as [->|Hne]; [auto|].
    rewrite push_some_step by auto. destruct (_ <? _)%nat; cbn [fst q_pending]; auto.
    apply Forall_app; split; auto.
  - cbn. destruct (q_pending q) eqn:E; cbn; auto. now inversion H.
Qed.

Lemma q_fifo ops : forall q,
  no_init ops ->
  Forall (fun e => e <> ev_none) (q_pending q) ->
  q_pending q ++ accepted (length (q_pending q)) ops
  = delivered (snd (q_run q ops)) ops ++ q_pending (fst (q_run q ops)).
Proof.
  induction ops as [|o r IH]; intros q Hno Hn.
  - cbn. now rewrite app_nil_r.
  - assert (Hr: no_init r) by (intro; apply Hno; now right).
    pose proof (q_no_none q Hn o) as Hn1.
    specialize (IH (fst (q_step q o)) Hr Hn1).
    cbn [q_run]. destruct (q_step q o) as [q1 x] eqn:Es. cbn [fst snd] in *.
    destruct (q_run q1 r) as [q2 xs] eqn:Er. cbn [fst snd] in *.
    destruct o.
    + exfalso; apply Hno; now left.
    + destruct (event_eq_dec e ev_none) as [->|Hne].
      * cbn in Es. inversion Es; subst. cbn. exact IH.
      * rewrite push_some_step in Es by auto.
        assert (Ha: accepted (length (q_pending q)) (EbPush e :: r) =
           if (length (q_pending q) <? 16)%nat then e :: accepted (S (length (q_pending q))) r
           else accepted (length (q_pending q)) r) by (destruct e; try reflexivity; congruence).
        rewrite Ha. destruct (_ <? _)%nat; inversion Es; subst; cbn [q_pending] in *.
        -- rewrite app_length in IH. cbn in IH. rewrite Nat.add_1_r in IH.
           rewrite <- app_assoc in IH. cbn in IH. exact IH.
        -- exact IH.
    + cbn in Es. destruct (q_pending q) as [|e p] eqn:Ep; inversion Es; subst; cbn in *.
      * exact IH.
      * inversion Hn; subst. destruct (event_eqb_spec e ev_none); [congruence|].
        cbn. now rewrite IH.
    + cbn in Es; inversion Es; subst. cbn. exact IH.
    + cbn in Es; inversion Es; subst. cbn in *. exact IH.
    + cbn in Es; inversion Es; subst. cbn in *. exact IH.
Qed.

Lemma q_pop_all p er hi :
  snd (q_run (mkQ p er hi) (repeat EbPop (length p))) = map OutEvent p.
Proof.
  induction p as [|e p IH]; cbn; auto.
  destruct (q_run (mkQ p er hi) (repeat EbPop (length p))); cbn in *. now rewrite IH.
Qed.

(** popEvent calls on the real buffer deliver exactly the accepted events in
    order; what is accepted and not delivered is still pending and would be
    delivered by further pops. *)
Lemma event_fifo_lemma b ops :
  length (eb_arr b) = 16%nat -> no_init ops ->
  exists rest,
    accepted 0 ops = delivered (snd (eb_run (eb_initialize b) ops)) ops ++ rest /\
    (length rest <= 16)%nat /\
    snd (eb_run (fst (eb_run (eb_initialize b) ops)) (repeat EbPop (length rest)))
      = map OutEvent rest /\
    eb_hasEvents (fst (eb_run (eb_initialize b) ops))
      = negb (match rest with [] => true | _ => false end).
Proof.
  intros Hl Hno.
  pose proof (eb_run_refines _ _ ops (eb_init_refines b Hl)) as [E R].
  set (b1 := fst (eb_run (eb_initialize b) ops)) in *.
  set (q1 := fst (q_run q_empty ops)) in *.
  exists (q_pending q1). split; [|split; [|split]].
  - rewrite E. pose proof (q_fifo ops q_empty Hno) as F. cbn in F. apply F. constructor.
  - destruct R as ((?&?&?)&Hp&_). rewrite Hp, eb_pending_length. lia.
  - pose proof (eb_run_refines _ _ (repeat EbPop (length (q_pending q1))) R) as [E2 _].
    rewrite E2. destruct q1. apply q_pop_all.
  - destruct R as ((?&?&?)&Hp&_).
    unfold eb_hasEvents. pose proof (eb_pending_length b1) as L. rewrite <- Hp in L.
    destruct (q_pending q1); cbn in *; lia.
Qed.

(** Error and high-water reporting, stated on histories: the answer of a poll
    is determined by the operations since the previous poll. *)
Definition is_err_reset (o : eb_op) : bool :=
  match o with EbInit | EbLastError => true | _ => false end.

Lemma q_error_unchanged q o :
  is_err_reset o = false ->
  q_error (fst (q_step q o)) =
    match o with
    | EbPush e => if event_eqb e ev_none then q_error q
                  else if (length (q_pending q) <? 16)%nat then q_error q else eventBufferOverflow
    | EbPop => match q_pending q with [] => eventBufferUnderflow | _ => q_error q end
    | _ => q_error q
    end.
Proof.
  destruct o; intro H; try discriminate; try (cbn; auto; fail).
  - destruct (event_eqb_spec e ev_none) as [->|Hne]; [auto|].
    rewrite push_some_step by auto. destruct (_ <? _)%nat; auto.
  - cbn. destruct (q_pending q); auto.
Qed.

(** Example: a history with wrap-around, overflow and underflow. *)
Definition ex_ops : list eb_op :=
  repeat (EbPush motionStarted) 10 ++ repeat EbPop 10 ++
  repeat (EbPush motionStopped) 16 ++ [EbPush homingError; EbLastError; EbLevelMax] ++
  repeat EbPop 17 ++ [EbLastError; EbLevelMax; EbHas].

Example ex_ops_nontrivial :
  no_init ex_ops /\ accepted 0 ex_ops = repeat motionStarted 10 ++ repeat motionStopped 16 /\
  skipn 36 (snd (eb_run (eb_initialize eb_zero) ex_ops)) =
    [OutUnit; OutEvent eventBufferOverflow; OutNum 16] ++
    repeat (OutEvent motionStopped) 16 ++ [OutEvent ev_none] ++
    [OutEvent eventBufferUnderflow; OutNum 0; OutBool false].
Proof.
  split; [|split; vm_compute; reflexivity].
  intro H. vm_compute in H. repeat (destruct H as [H|H]; [discriminate|]). exact H.
Qed.
