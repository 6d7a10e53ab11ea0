(** Proofs about homing. *)
Require Import List Arith NArith ZArith Bool Lia.
From Verif Require Import Base EventModel InputModel Num MotionModel CtrlModel HomingModel HomingSpec.
Import ListNotations.
Open Scope nat_scope.

Section P.
Context {D F : Type} (A : arith D F) (H : hcfg D F).

Lemma close_event_spec u a : a < 3 -> close_event u a = limit_closed u a.
Proof. intro L; destruct u, a as [|[|[|a]]]; try lia; reflexivity. Qed.
Lemma open_event_spec u a : a < 3 -> open_event u a = limit_opened u a.
Proof. intro L; destruct u, a as [|[|[|a]]]; try lia; reflexivity. Qed.

(** The selected axis, with its switch and events. *)
Definition selected (h : homing) (a : nat) (r : list nat) : Prop :=
  a < 3 /\ h_axis h = a /\ h_switch h = switch_input H a /\
  h_close h = limit_closed (up H a) a /\ h_open h = limit_opened (up H a) a /\
  h_index h < length (hc_seq H) /\
  filter (homeable H) (skipn (S (h_index h)) (hc_seq H)) = r.

Lemma skipn_cons (l : list nat) i a r : skipn i l = a :: r -> i < length l /\ skipn (S i) l = r.
Proof.
  revert i; induction l as [|x l IH]; intros [|i] E; cbn in *; try discriminate.
  - injection E as -> ->. split; [lia | reflexivity].
  - apply IH in E. split; [lia | apply E].
Qed.

Lemma scan_lemma rest : forall h, rest = skipn (h_index h) (hc_seq H) ->
  let '(h1, found) := h_scan H rest h in
  h_state h1 = h_state h /\
  match filter (homeable H) rest with
  | [] => found = false
  | a :: r => found = true /\ selected h1 a r
  end.
Proof.
  induction rest as [|x rest IH]; intros h E; [split; reflexivity|].
  symmetry in E. destruct (skipn_cons _ _ _ _ E) as [L E1].
  cbn [h_scan filter].
  assert (NX : let '(h1, found) := h_scan H rest (with_index (with_axis h x) (h_index (with_axis h x) + 1)) in
               h_state h1 = h_state h /\
               match filter (homeable H) rest with
               | [] => found = false
               | a :: r => found = true /\ selected h1 a r
               end).
  { specialize (IH (with_index (with_axis h x) (h_index (with_axis h x) + 1))).
    cbn [h_index with_index with_axis h_state] in IH |- *. apply IH.
    rewrite Nat.add_1_r. symmetry; exact E1. }
  unfold homeable at 1, up.
  destruct (x <? 3) eqn:X; [|exact NX].
  apply Nat.ltb_lt in X. cbn [andb].
  destruct (nth x (hc_dir H) false) eqn:DX.
  - destruct (nth x (hc_hasMax H) false) eqn:MX; [|exact NX].
    split; [reflexivity|]. split; [reflexivity|].
    unfold selected, switch_input, up, with_switch, with_axis.
    cbn [h_axis h_switch h_close h_open h_index]. rewrite DX.
    rewrite close_event_spec, open_event_spec by exact X. rewrite E1. repeat split; assumption.
  - destruct (nth x (hc_hasMin H) false) eqn:MX; [|exact NX].
    split; [reflexivity|]. split; [reflexivity|].
    unfold selected, switch_input, up, with_switch, with_axis.
    cbn [h_axis h_switch h_close h_open h_index]. rewrite DX.
    rewrite close_event_spec, open_event_spec by exact X. rewrite E1. repeat split; assumption.
Qed.

(** The remaining protocol of each state. *)
Definition back (a : nat) (r : list nat) : list (haction D) * protocol (D := D) :=
  (release A H a, Await (limit_opened (up H a) a) (fun _ =>
  ([DoStop],  Await motionStopped (fun _ =>
  (clear A H a,   Await motionStopped (home A H r)))))).

Definition sim (h : homing) (p : protocol (D := D)) : Prop :=
  match h_state h with
  | hs_lost | hs_found => p = Finished
  | hs_stopping => exists a r, selected h a r /\ p = Await motionStopped (home A H (a :: r))
  | hs_closing => exists a r, selected h a r /\
      p = Await (limit_closed (up H a) a) (fun _ => ([DoStop], Await motionStopped (fun _ => back a r)))
  | hs_closedWaitForStop => exists a r, selected h a r /\ p = Await motionStopped (fun _ => back a r)
  | hs_opening => exists a r, selected h a r /\ p = snd (back a r)
  | hs_openedWaitForStop => exists a r, selected h a r /\
      p = Await motionStopped (fun _ => (clear A H a, Await motionStopped (home A H r)))
  | hs_offsettingWaitForStop => exists a r, selected h a r /\ p = Await motionStopped (home A H r)
  end.

Lemma selected_state h s a r : selected h a r -> selected (with_state h s) a r.
Proof. destruct h; exact (fun x => x). Qed.

Lemma goTo_sim h s a r : selected h a r ->
  let '(h1, acts) := h_goTo A H h s in
  h_state h1 = s /\ selected h1 a r /\
  acts = match s with
         | hs_lost => []
         | hs_stopping | hs_closedWaitForStop | hs_openedWaitForStop => [DoStop]
         | hs_closing => seek A H a
         | hs_opening => release A H a
         | hs_offsettingWaitForStop => clear A H a
         | hs_found => [DoPush homingCompleted]
         end.
Proof.
  intro S0. unfold h_goTo.
  split; [reflexivity|]. split; [apply selected_state, S0|].
  destruct S0 as (L & E & _). unfold h_enter, seek, release, clear, up. cbn [h_state with_state h_axis].
  rewrite E. destruct s; try reflexivity;
  unfold h_plus, h_minus, h_sMax, h_offset, travel, clearance, minusF, minusD;
  destruct (nth a (hc_dir H) false); reflexivity.
Qed.

Lemma approach_sim closed h a r : selected h a r ->
  let '(h1, acts) := h_approach A H closed h in
  let '(acts', p) := home A H (a :: r) closed in
  acts = acts' /\ sim h1 p.
Proof.
  intro S0. unfold h_approach. pose proof S0 as (L & EA & ES & _). rewrite ES.
  cbn [home]. destruct (closed (switch_input H a)).
  - pose proof (goTo_sim h hs_opening a r S0) as G. destruct (h_goTo A H h hs_opening) as [h1 acts].
    destruct G as (G1 & G2 & G3). split; [exact G3|]. unfold sim. rewrite G1. exists a, r. split; [exact G2|reflexivity].
  - pose proof (goTo_sim h hs_closing a r S0) as G. destruct (h_goTo A H h hs_closing) as [h1 acts].
    destruct G as (G1 & G2 & G3). split; [exact G3|]. unfold sim. rewrite G1. exists a, r. split; [exact G2|reflexivity].
Qed.

Lemma event_eqb_dec a b : event_eqb a b = if event_eq_dec a b then true else false.
Proof. reflexivity. Qed.
Lemma event_eqb_sym a b : event_eqb a b = event_eqb b a.
Proof.
  unfold event_eqb. destruct (event_eq_dec a b) as [->|N]; [destruct (event_eq_dec b b); congruence|].
  destruct (event_eq_dec b a); congruence.
Qed.

Lemma handle_sim closed e h p : sim h p ->
  let '(h1, acts) := h_handle A H closed e h in
  match p with
  | Finished => acts = [] /\ sim h1 Finished
  | Await w next =>
      if event_eq_dec e w then acts = fst (next closed) /\ sim h1 (snd (next closed))
      else acts = [] /\ sim h1 p
  end.
Proof.
  intro S0. unfold h_handle. pose proof S0 as S1. unfold sim in S0. destruct (h_state h) eqn:ST.
  - subst p. split; [reflexivity | exact S1].
  - destruct S0 as (a & r & SE & ->). rewrite event_eqb_dec. destruct (event_eq_dec e motionStopped).
    + pose proof (approach_sim closed h a r SE) as X.
      destruct (h_approach A H closed h) as [h1 acts].
      destruct (home A H (a :: r) closed) as [acts' p'] eqn:E. cbn [fst snd]. exact X.
    + split; [reflexivity | exact S1].
  - destruct S0 as (a & r & SE & ->). pose proof SE as (_ & _ & _ & EC & _). rewrite event_eqb_sym, event_eqb_dec, EC.
    destruct (event_eq_dec e (limit_closed (up H a) a)).
    + pose proof (goTo_sim h hs_closedWaitForStop a r SE) as G. destruct (h_goTo A H h hs_closedWaitForStop) as [h1 acts].
      destruct G as (G1 & G2 & G3). cbn [fst snd]. split; [exact G3|]. unfold sim. rewrite G1. exists a, r. split; [exact G2 | reflexivity].
    + split; [reflexivity | exact S1].
  - destruct S0 as (a & r & SE & ->). rewrite event_eqb_dec. destruct (event_eq_dec e motionStopped).
    + pose proof (goTo_sim h hs_opening a r SE) as G. destruct (h_goTo A H h hs_opening) as [h1 acts].
      destruct G as (G1 & G2 & G3). cbn [fst snd back]. split; [exact G3|]. unfold sim. rewrite G1. exists a, r. split; [exact G2 | reflexivity].
    + split; [reflexivity | exact S1].
  - destruct S0 as (a & r & SE & ->). pose proof SE as (_ & _ & _ & _ & EO & _). rewrite event_eqb_sym, event_eqb_dec, EO.
    cbn [back snd]. destruct (event_eq_dec e (limit_opened (up H a) a)).
    + pose proof (goTo_sim h hs_openedWaitForStop a r SE) as G. destruct (h_goTo A H h hs_openedWaitForStop) as [h1 acts].
      destruct G as (G1 & G2 & G3). cbn [fst snd]. split; [exact G3|]. unfold sim. rewrite G1. exists a, r. split; [exact G2 | reflexivity].
    + split; [reflexivity | exact S1].
  - destruct S0 as (a & r & SE & ->). rewrite event_eqb_dec. destruct (event_eq_dec e motionStopped).
    + pose proof (goTo_sim h hs_offsettingWaitForStop a r SE) as G. destruct (h_goTo A H h hs_offsettingWaitForStop) as [h1 acts].
      destruct G as (G1 & G2 & G3). cbn [fst snd]. split; [exact G3|]. unfold sim. rewrite G1. exists a, r. split; [exact G2 | reflexivity].
    + split; [reflexivity | exact S1].
  - destruct S0 as (a & r & SE & ->). rewrite event_eqb_dec. destruct (event_eq_dec e motionStopped).
    + unfold h_nextAxis. pose proof SE as (_ & _ & _ & _ & _ & L & R).
      apply Nat.ltb_lt in L. rewrite L. unfold h_selectAxis.
      pose proof (scan_lemma (skipn (h_index (with_index h (h_index h + 1))) (hc_seq H)) (with_index h (h_index h + 1)) eq_refl) as X.
      replace (h_index (with_index h (h_index h + 1))) with (S (h_index h)) in * by (cbn; lia).
      rewrite R in X. destruct (h_scan H (skipn (S (h_index h)) (hc_seq H)) (with_index h (h_index h + 1))) as [h1 more].
      destruct X as [_ X]. destruct r as [|a1 r1].
      * subst more. unfold h_goTo. split; reflexivity.
      * destruct X as [-> X]. pose proof (approach_sim closed h1 a1 r1 X) as Y.
        destruct (h_approach A H closed h1) as [h2 acts].
        destruct (home A H (a1 :: r1) closed) as [acts' p'] eqn:E. cbn [fst snd]. exact Y.
    + split; [reflexivity | exact S1].
  - subst p. split; [reflexivity | exact S1].
Qed.

Lemma run_sim ins : forall h p, sim h p -> snd (h_run A H h ins) = perform p ins.
Proof.
  induction ins as [|[e closed] ins IH]; intros h p S0; [reflexivity|].
  cbn [h_run perform]. pose proof (handle_sim closed e h p S0) as X.
  destruct (h_handle A H closed e h) as [h1 acts]. 
  destruct p as [|w next].
  - destruct X as [-> X]. specialize (IH _ _ X). destruct (h_run A H h1 ins) as [h2 l]. cbn [snd] in *. rewrite IH. reflexivity.
  - destruct (event_eq_dec e w).
    + destruct (next closed) as [acts' q]. cbn [fst snd] in X. destruct X as [-> X].
      specialize (IH _ _ X). destruct (h_run A H h1 ins) as [h2 l]. cbn [snd] in *. rewrite IH. reflexivity.
    + destruct X as [-> X]. specialize (IH _ _ X). destruct (h_run A H h1 ins) as [h2 l]. cbn [snd] in *. rewrite IH. reflexivity.
Qed.

Lemma start_sim running closed h :
  h_state h = hs_lost \/ h_state h = hs_found \/ route H <> [] ->
  let '(h1, acts) := h_start A H running closed h in
  acts = fst (begin_homing A H running closed) /\ sim h1 (snd (begin_homing A H running closed)).
Proof.
  intro HS. unfold h_start, h_selectAxis, begin_homing.
  pose proof (scan_lemma (skipn (h_index (with_index h 0)) (hc_seq H)) (with_index h 0) eq_refl) as X.
  cbn [h_index with_index skipn] in X |- *.
  fold (route H) in X. destruct (h_scan H (hc_seq H) (with_index h 0)) as [h1 found].
  destruct X as [X0 X].
  destruct (route H) as [|a r].
  - subst found. split; [reflexivity|]. unfold sim. rewrite X0. cbn [h_state with_index].
    destruct HS as [-> | [-> | E]]; try reflexivity. congruence.
  - destruct X as [-> X]. destruct running.
    + pose proof (goTo_sim h1 hs_stopping a r X) as G. destruct (h_goTo A H h1 hs_stopping) as [h2 acts].
      destruct G as (G1 & G2 & ->). split; [reflexivity|]. cbn [snd]. unfold sim. rewrite G1. exists a, r. split; [exact G2|reflexivity].
    + pose proof (approach_sim closed h1 a r X) as Y. destruct (h_approach A H closed h1) as [h2 acts].
      destruct (home A H (a :: r) closed) as [acts' p']. destruct Y as [-> Y]. split; [reflexivity | exact Y].
Qed.

Lemma refines_lemma h running closed ins :
  h_state h = hs_lost \/ h_state h = hs_found \/ route H <> [] ->
  let '(h1, acts) := h_start A H running closed h in
  let '(acts', p) := begin_homing A H running closed in
  acts = acts' /\ snd (h_run A H h1 ins) = perform p ins.
Proof.
  intro HS. pose proof (start_sim running closed h HS) as X.
  destruct (h_start A H running closed h) as [h1 acts].
  destruct (begin_homing A H running closed) as [acts' p]. cbn [fst snd] in X.
  destruct X as [-> X]. split; [reflexivity|]. apply run_sim, X.
Qed.

(** *** The calls are a beginning of the complete sequence. *)
Lemma prefix_refl {T} (l : list T) : prefix l l.
Proof. exists []. symmetry; apply app_nil_r. Qed.
Lemma prefix_nil {T} (l : list T) : prefix [] l.
Proof. exists l. reflexivity. Qed.
Lemma prefix_app {T} (x l m : list T) : prefix l m -> prefix (x ++ l) (x ++ m).
Proof. intros [r ->]. exists r. apply app_assoc. Qed.
Lemma prefix_short {T} (x y : list T) : prefix x (x ++ y).
Proof. exists y. reflexivity. Qed.

Lemma finished_calls ins : concat (perform (D := D) Finished ins) = [].
Proof. induction ins as [|[e c] ins IH]; [reflexivity | exact IH]. Qed.
Lemma await_calls w next ins :
  concat (perform (D := D) (Await w next) ins) = [] \/
  exists closed ins1, concat (perform (Await w next) ins) =
                      fst (next closed) ++ concat (perform (snd (next closed)) ins1).
Proof.
  induction ins as [|[e closed] ins IH]; [left; reflexivity|].
  cbn [perform]. destruct (event_eq_dec e w).
  - right. exists closed, ins. destruct (next closed); reflexivity.
  - exact IH.
Qed.

Lemma all_calls_cons (l : list (nat * bool)) a b :
  all_calls A H ((a, b) :: l) = phases A H a b ++ all_calls A H l.
Proof. unfold all_calls. cbn [map concat fst snd]. rewrite app_assoc. reflexivity. Qed.

Lemma home_prefix l : forall closed ins, exists bs, length bs = length l /\
  prefix (fst (home A H l closed) ++ concat (perform (snd (home A H l closed)) ins))
         (all_calls A H (combine l bs)) /\
  (In (DoPush homingCompleted) (fst (home A H l closed) ++ concat (perform (snd (home A H l closed)) ins)) ->
   fst (home A H l closed) ++ concat (perform (snd (home A H l closed)) ins) = all_calls A H (combine l bs)).
Proof.
  induction l as [|a l IH]; intros closed ins.
  - exists []. split; [reflexivity|]. cbn [home fst snd combine]. rewrite finished_calls, app_nil_r.
    split; [apply prefix_refl | reflexivity].
  - assert (B : forall ins, exists bs, length bs = length l /\
                let x := fst (back a l) ++ concat (perform (snd (back a l)) ins) in
                prefix x (phases A H a true ++ all_calls A H (combine l bs)) /\
                (In (DoPush homingCompleted) x -> x = phases A H a true ++ all_calls A H (combine l bs))).
    { clear ins. intro ins. cbn [back fst snd]. unfold phases.
      set (bs0 := repeat true (length l)).
      destruct (await_calls (limit_opened (up H a) a) (fun _ =>
                  ([DoStop],  Await motionStopped (fun _ =>
                  (clear A H a,   Await motionStopped (home A H l))))) ins) as [E | (c1 & i1 & E)]; rewrite E; clear E.
      { exists bs0. split; [apply repeat_length|]. cbn zeta. rewrite app_nil_r. split.
        - rewrite app_nil_l, <- ?app_assoc. apply prefix_short.
        - unfold release. intros [X|[]]; discriminate. }
      cbn [fst snd].
      destruct (await_calls motionStopped (fun _ =>
                  (clear A H a,   Await motionStopped (home A H l))) i1) as [E | (c2 & i2 & E)]; rewrite E; clear E.
      { exists bs0. split; [apply repeat_length|]. cbn zeta. rewrite app_nil_r. split.
        - rewrite app_nil_l, <- ?app_assoc. apply prefix_app, prefix_short.
        - unfold release. intros [X|[X|[]]]; discriminate. }
      cbn [fst snd].
      destruct (await_calls motionStopped (home A H l) i2) as [E | (c3 & i3 & E)]; rewrite E; clear E.
      { exists bs0. split; [apply repeat_length|]. cbn zeta. rewrite app_nil_r. split.
        - rewrite app_nil_l, <- ?app_assoc. do 2 apply prefix_app. apply prefix_short.
        - unfold release, clear. intros [X|[X|[X|[]]]]; discriminate. }
      destruct (IH c3 i3) as (bs & L & P & C). exists bs. split; [exact L|]. cbn zeta. split.
      - rewrite app_nil_l, <- ?app_assoc. do 3 apply prefix_app. exact P.
      - intro X. rewrite app_nil_l, <- ?app_assoc. do 3 f_equal. apply C.
        rewrite !in_app_iff in X. unfold release, clear in X. cbn [In] in X.
        rewrite in_app_iff. destruct X as [[X|[]]|[[X|[]]|[[X|[]]|X]]]; try discriminate. exact X. }
    cbn [home]. fold (back a l). destruct (closed (switch_input H a)).
    + destruct (B ins) as (bs & L & P & C). exists (true :: bs). split; [cbn [length]; rewrite L; reflexivity|].
      cbn [combine]. rewrite all_calls_cons. split; [exact P | exact C].
    + cbn [fst snd].
      set (bs0 := false :: repeat true (length l)).
      assert (L0 : length bs0 = length (a :: l)) by (cbn [bs0 length]; rewrite repeat_length; reflexivity).
      destruct (await_calls (limit_closed (up H a) a) (fun _ =>
                  ([DoStop], Await motionStopped (fun _ => back a l))) ins) as [E | (c1 & i1 & E)]; rewrite E; clear E.
      { exists bs0. split; [exact L0|]. unfold bs0. cbn [combine]. rewrite all_calls_cons, app_nil_r. unfold phases. split.
        - rewrite <- !app_assoc. apply prefix_short.
        - unfold seek. intros [X|[]]; discriminate. }
      cbn [fst snd].
      destruct (await_calls motionStopped (fun _ => back a l) i1) as [E | (c2 & i2 & E)]; rewrite E; clear E.
      { exists bs0. split; [exact L0|]. unfold bs0. cbn [combine]. rewrite all_calls_cons, app_nil_r. unfold phases. split.
        - rewrite <- !app_assoc. apply prefix_app, prefix_short.
        - unfold seek. intros [X|[X|[]]]; discriminate. }
      destruct (B i2) as (bs & L & P & C). exists (false :: bs). split; [cbn [length]; rewrite L; reflexivity|].
      cbn [combine]. rewrite all_calls_cons. 
      assert (E : phases A H a false ++ all_calls A H (combine l bs) =
                  seek A H a ++ [DoStop] ++ phases A H a true ++ all_calls A H (combine l bs)).
      { unfold phases. rewrite app_nil_l, <- ?app_assoc. reflexivity. }
      rewrite E. split.
      * do 2 apply prefix_app. exact P.
      * intro X. do 2 f_equal. apply C. rewrite !in_app_iff in X. unfold seek in X. cbn [In] in X.
        rewrite in_app_iff. destruct X as [[X|[]]|[[X|[]]|X]]; try discriminate. exact X.
Qed.

Lemma order_lemma h running closed ins :
  h_state h = hs_lost \/ h_state h = hs_found \/ route H <> [] ->
  let '(h1, acts) := h_start A H running closed h in
  let calls := acts ++ concat (snd (h_run A H h1 ins)) in
  (route H = [] -> calls = [DoPush homingError]) /\
  (route H <> [] -> exists bs, length bs = length (route H) /\
     let full := DoPush homingStarted :: (if running then [DoStop] else [])
                 ++ all_calls A H (combine (route H) bs) in
     prefix calls full /\ (In (DoPush homingCompleted) calls -> calls = full)).
Proof.
  intro HS. pose proof (refines_lemma h running closed ins HS) as R.
  destruct (h_start A H running closed h) as [h1 acts].
  unfold begin_homing in R. destruct (route H) as [|a r] eqn:E.
  - destruct R as [-> R]. rewrite R, finished_calls. cbn zeta. split; [reflexivity|congruence].
  - split; [congruence|]. intros _. destruct running.
    + destruct R as [-> R]. cbn zeta. rewrite R.
      destruct (await_calls motionStopped (home A H (a :: r)) ins) as [X | (c1 & i1 & X)]; rewrite X; clear X.
      * exists (repeat true (length (a :: r))). split; [apply repeat_length|]. split.
        -- eexists. reflexivity.
        -- intros [X|[X|[]]]; discriminate.
      * destruct (home_prefix (a :: r) c1 i1) as (bs & L & P & C). exists bs. split; [exact L|]. split.
        -- apply (prefix_app [DoPush homingStarted; DoStop]), P.
        -- intros [X|[X|X]]; try discriminate. cbn [app]. do 2 f_equal. apply C, X.
    + destruct (home_prefix (a :: r) closed ins) as (bs & L & P & C).
      destruct (home A H (a :: r) closed) as [acts' p]. destruct R as [-> R]. cbn zeta. rewrite R.
      cbn [fst snd] in P, C. exists bs. split; [exact L|]. split.
      * apply (prefix_app [DoPush homingStarted]), P.
      * intros [X|X]; try discriminate. cbn [app]. f_equal. apply C, X.
Qed.
End P.

(** *** Liveness *)
Section Live.
Context {D F : Type} (A : arith D F) (H : hcfg D F).
Definition completes (p : protocol (D := D)) : Prop :=
  forall s k, fair s -> exists n, In (DoPush homingCompleted) (concat (perform p (map s (seq k n)))).
Lemma await_completes w next :
  (forall closed, In (DoPush homingCompleted) (fst (next closed)) \/ completes (snd (next closed))) ->
  completes (Await w next).
Proof.
  intros N s k FA. destruct (FA w k) as (j & L & E).
  remember (j - k) as d eqn:ED. revert k L ED. induction d as [|d IH]; intros k L ED.
  - assert (j = k) by lia. subst j. destruct (s k) as [e closed] eqn:SK. cbn [fst] in E. subst e.
    destruct (N closed) as [I|C].
    + exists 1. cbn [seq map perform]. rewrite SK. destruct (event_eq_dec w w) as [_|B]; [|congruence].
      destruct (next closed) as [acts q]. cbn [concat]. apply in_app_iff. left. exact I.
    + destruct (C s (S k) FA) as [n I]. exists (S n). cbn [seq map perform]. rewrite SK.
      destruct (event_eq_dec w w) as [_|B]; [|congruence].
      destruct (next closed) as [acts q]. cbn [concat snd] in *. apply in_app_iff. right. exact I.
  - destruct (IH (S k)) as [n I]; [lia|lia|]. destruct (s k) as [e closed] eqn:SK.
    destruct (event_eq_dec e w) as [->|NE].
    + destruct (N closed) as [I1|C].
      * exists 1. cbn [seq map perform]. rewrite SK. destruct (event_eq_dec w w) as [_|B]; [|congruence].
        destruct (next closed) as [acts q]. cbn [concat]. apply in_app_iff. left. exact I1.
      * destruct (C s (S k) FA) as [n1 I1]. exists (S n1). cbn [seq map perform]. rewrite SK.
        destruct (event_eq_dec w w) as [_|B]; [|congruence].
        destruct (next closed) as [acts q]. cbn [concat snd] in *. apply in_app_iff. right. exact I1.
    + exists (S n). cbn [seq map perform]. rewrite SK. destruct (event_eq_dec e w) as [B|_]; [congruence|]. exact I.
Qed.
Lemma home_completes l : forall closed,
  In (DoPush homingCompleted) (fst (home A H l closed)) \/ completes (snd (home A H l closed)).
Proof.
  induction l as [|a l IH]; intro closed; [left; left; reflexivity|]. right. cbn [home].
  assert (B : completes (Await (limit_opened (up H a) a) (fun _ =>
        ([DoStop],  Await motionStopped (fun _ =>
        (clear A H a,   Await motionStopped (home A H l))))))).
  { apply await_completes. intros _. right. apply await_completes. intros _. right. apply await_completes. exact IH. }
  destruct (closed (switch_input H a)); cbn [snd]; [exact B|].
  apply await_completes. intros _. right. apply await_completes. intros _. right. exact B.
Qed.
Lemma completes_lemma h running closed s : route H <> [] -> fair s ->
  let '(h1, acts) := h_start A H running closed h in
  exists n, In (DoPush homingCompleted) (concat (snd (h_run A H h1 (map s (seq 0 n))))).
Proof.
  intros R FA.
  pose proof (fun ins => refines_lemma A H h running closed ins (or_intror (or_intror R))) as E.
  destruct (h_start A H running closed h) as [h1 acts].
  assert (C : completes (snd (begin_homing A H running closed))).
  { unfold begin_homing. destruct (route H) as [|a r] eqn:ER; [congruence|]. destruct running.
    - apply await_completes. intro c. apply home_completes.
    - destruct (home_completes (a :: r) closed) as [I|C].
      + exfalso. cbn [home] in I. destruct (closed (switch_input H a)); cbn [fst] in I; destruct I as [I|[]]; discriminate.
      + destruct (home A H (a :: r) closed). exact C. }
  destruct (begin_homing A H running closed) as [acts' p]. cbn [snd] in C.
  destruct (C s 0 FA) as [n I]. exists n. destruct (E (map s (seq 0 n))) as [_ ->]. exact I.
Qed.
End Live.
