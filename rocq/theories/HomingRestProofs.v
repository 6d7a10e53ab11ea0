(** Homing issues one motion per stop it is told of. *)
Require Import List Arith NArith ZArith Bool Lia.
From Verif Require Import Base EventModel EventProofs InputModel Num MotionModel CtrlModel HomingModel HomingSpec.
Import ListNotations.
Section Rest.
Context {D F : Type} (A : arith D F) (H : hcfg D F).
(** The motions among the calls. *)
Definition moves (l : list (haction D)) : nat := length (filter (fun a => match a with DoMove _ _ _ => true | _ => false end) l).
Lemma enter_moves h : moves (h_enter A H h) <= 1.
Proof. unfold h_enter. destruct (h_state h); cbn; lia. Qed.
Lemma approach_moves closed h : moves (snd (h_approach A H closed h)) <= 1.
Proof. unfold h_approach. destruct (closed _); cbn [h_goTo snd]; apply enter_moves. Qed.
Lemma handle_moves closed e h : moves (snd (h_handle A H closed e h)) <= (if event_eqb e motionStopped then 1 else 0).
Proof.
  unfold h_handle. destruct (h_state h); cbn [snd]; try (cbn; lia);
    try (destruct (event_eqb e motionStopped); [|cbn; lia]);
    try (destruct (event_eqb _ e) eqn:?); try apply approach_moves; try (cbn; lia).
  destruct (h_nextAxis H h) as [h1 [|]]; [apply approach_moves|cbn; lia].
Qed.
Lemma start_moves running closed h : moves (snd (h_start A H running closed h)) <= (if running then 0 else 1).
Proof.
  unfold h_start. destruct (h_selectAxis H (with_index h 0)) as [h1 [|]]; [|cbn; destruct running; lia].
  destruct running; cbn [h_goTo]; [cbn; lia|]. pose proof (approach_moves closed h1). destruct (h_approach A H closed h1) as [h2 acts]. cbn in *. exact H0.
Qed.
Lemma moves_app a b : moves (a ++ b) = moves a + moves b.
Proof. unfold moves. now rewrite filter_app, app_length. Qed.
Lemma run_moves ins : forall h, moves (concat (snd (h_run A H h ins))) <= length (filter (fun i => event_eqb (fst i) motionStopped) ins).
Proof.
  induction ins as [|[e c] ins IH]; intro h; cbn [h_run]; [cbn; lia|]. pose proof (handle_moves c e h) as HM. destruct (h_handle A H c e h) as [h1 a]. specialize (IH h1). destruct (h_run A H h1 ins) as [h2 l].
  cbn [snd concat filter fst] in *. rewrite moves_app. destruct (event_eqb e motionStopped); cbn [length]; lia.
Qed.
Lemma one_move_per_stop running closed h ins : let '(h1, acts) := h_start A H running closed h in
  moves (acts ++ concat (snd (h_run A H h1 ins))) <= (if running then 0 else 1) + length (filter (fun i => event_eqb (fst i) motionStopped) ins).
Proof.
  pose proof (start_moves running closed h) as S1. destruct (h_start A H running closed h) as [h1 acts]. rewrite moves_app. pose proof (run_moves ins h1). cbn [snd] in S1. lia.
Qed.
End Rest.
