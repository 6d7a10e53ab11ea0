(** binary32: one tick of a motion, all axes. *)
Require Import List Arith NArith ZArith Bool Reals Lra Lia ZifyBool ZifyNat ZifyN.
From Coq Require Import Floats.SpecFloat.
From Flocq Require Import Zaux Raux Defs Generic_fmt FLT Float_prop Round_NE Ulp Round_pred Relative BinarySingleNaN.
From Verif Require Import Base BaseProofs EventModel StepModel StepSpec Num NumSF MotionModel CtrlModel CtrlSpec CtrlRSpec CtrlProofs CtrlTrackProofs CtrlQueueProofs RingProofs FloatSpec FloatProofs FloatClockProofs FloatTrackProofs FloatErrProofs.
Import ListNotations.
Open Scope R_scope.

(** What a step leaves unchanged. *)
Definition frame {F} (c c' : ctrl F) : Prop :=
  c_items c' = c_items c /\ c_head c' = c_head c /\ c_level c' = c_level c /\ c_st c' = c_st c /\ c_state c' = c_state c /\
  c_events c' = c_events c /\ c_fo c' = c_fo c /\ c_levelMax c' = c_levelMax c.
Lemma frame_refl {F} (c : ctrl F) : frame c c.
Proof. repeat split. Qed.
Lemma frame_trans {F} (a b c : ctrl F) : frame a b -> frame b c -> frame a c.
Proof. intros (a1 & a2 & a3 & a4 & a5 & a6 & a7 & a8) (b1 & b2 & b3 & b4 & b5 & b6 & b7 & b8). repeat split; etransitivity; eassumption. Qed.

Section Move.
Variables (X : sf_funs) (M : machine sf) (k : nat -> R) (B : R).
Notation A := (sf_arith X).
Hypothesis HK : forall i, (i < 3)%nat -> float32 (nthF A (m_stepsPerMm M) i) (k i).
Hypothesis HB : 0 <= B <= 1048576.

(** The commanded position [r k] is within [dl] of the exact one [y1]. *)
Lemma jitter (c : ctrl sf) i mm r y0 y1 dl E0 rho : (i < 3)%nat -> length (c_pos c) = 3%nat -> float32 mm r -> Rabs (r * k i) <= B ->
  Rabs (r * k i - y1) <= dl -> Rabs (y0 - fpos i c) <= E0 -> Rabs (y1 - y0) <= rho -> E0 + rho <= 55/100 + slack B + dl + 1 -> dl <= 1000 ->
  exists c' z, c_trackAxis A M c i mm = Ok c' /\ c_pos c' = upd (c_pos c) i z /\ Rabs (y1 - IZR z) <= 55/100 + slack B + dl /\ frame c c'.
Proof.
  intros Hi HL F LQ JQ H0 H1 HE HD.
  assert (S0 : 0 <= slack B <= 13/100) by (unfold slack; lra).
  pose proof (Rabs_pos (r * k i - y1)). pose proof (Rabs_pos (y0 - fpos i c)). pose proof (Rabs_pos (y1 - y0)).
  apply Rabs_le_inv in LQ as LQ'. apply Rabs_le_inv in JQ. apply Rabs_le_inv in H0. apply Rabs_le_inv in H1.
  assert (PB : Rabs (fpos i c) <= 1060000) by (apply Rabs_le; lra).
  assert (PZ : (Z.abs (nth i (c_pos c) 0) <= 1060000)%Z). { apply le_IZR. rewrite abs_IZR. exact PB. }
  destruct (decide_fdec X M i (k i) (HK i Hi) c mm r B) as (u & v & N & E); auto; [lra|lia|].
  pose proof (fdec_spec (nth i (c_pos c) 0%Z) u v B _ N) as SP.
  set (d := fdec (nth i (c_pos c) 0%Z) u v) in *. unfold c_trackAxis. rewrite E. cbn [rbind]. unfold fpos in *.
  destruct d as [d|].
  - unfold c_stepAxis. assert (int32_ok (nth i (c_pos c) 0 + match d with Fwd => 1 | Bwd => -1 end)%Z = true) as ->.
    { apply andb_true_intro. split; apply Z.leb_le; destruct d; lia. }
    eexists. eexists. split; [reflexivity|]. split; [reflexivity|]. rewrite plus_IZR. split; [|repeat split]. apply Rabs_le. destruct d; lra.
  - exists c, (nth i (c_pos c) 0%Z). split; [reflexivity|]. rewrite upd_nth_same. split; auto. split; [|apply frame_refl]. apply Rabs_le. apply Rabs_le_inv in SP. lra.
Qed.

Lemma nth_upd3 (l : list Z) i j x : length l = 3%nat -> (i < 3)%nat -> nth j (upd l i x) 0%Z = if (j =? i)%nat then x else nth j l 0%Z.
Proof.
  intros HL Hi. destruct (Nat.eqb_spec j i) as [->|NE].
  - apply nth_upd_eq. lia.
  - apply nth_upd_neq. auto.
Qed.

(** All axes: [mo_position] gives floats near the exact positions [y1], in steps. *)
Lemma moveAxes_fin (o : motion sf) dist (y0 y1 dl E0 rho : nat -> R) js :
  (forall i, (i < 3)%nat -> mo_isMoving A o i = true ->
     (exists r, float32 (mo_position A o i dist) r /\ Rabs (r * k i) <= B /\ Rabs (r * k i - y1 i) <= dl i) /\
     Rabs (y1 i - y0 i) <= rho i /\ E0 i + rho i <= 55/100 + slack B + dl i + 1 /\ dl i <= 1000) ->
  NoDup js -> forall c : ctrl sf, (forall i, In i js -> (i < 3)%nat) -> length (c_pos c) = 3%nat ->
  (forall i, In i js -> mo_isMoving A o i = true -> Rabs (y0 i - fpos i c) <= E0 i) ->
  exists c', c_moveAxes A M o dist c js = Ok c' /\ frame c c' /\ length (c_pos c') = 3%nat /\
    forall i, (i < 3)%nat -> if (if in_dec Nat.eq_dec i js then mo_isMoving A o i else false)
      then Rabs (y1 i - fpos i c') <= 55/100 + slack B + dl i else fpos i c' = fpos i c.
Proof.
  intros HP. induction js as [|j js IH]; intros ND c HI HL HC; cbn [c_moveAxes].
  - exists c. split; auto. split; [apply frame_refl|]. split; auto. intros i Hi. destruct (in_dec Nat.eq_dec i []) as [[]|]. reflexivity.
  - inversion ND as [|? ? NI ND']; subst. assert (Hj : (j < 3)%nat) by (apply HI; left; auto).
    assert (G : exists c1, c_moveAxis A M o dist c j = Ok c1 /\ frame c c1 /\ length (c_pos c1) = 3%nat /\
      (forall i, i <> j -> fpos i c1 = fpos i c) /\ (if mo_isMoving A o j then Rabs (y1 j - fpos j c1) <= 55/100 + slack B + dl j else fpos j c1 = fpos j c)).
    { unfold c_moveAxis. destruct (mo_isMoving A o j) eqn:EM.
      - destruct (HP j Hj EM) as ((r & Fr & Br & Dr) & R1 & R2 & R3).
        destruct (jitter c j (mo_position A o j dist) r (y0 j) (y1 j) (dl j) (E0 j) (rho j)) as (c1 & z & E1 & P1 & N1 & F1); auto. { apply HC; auto. left; auto. }
        exists c1. split; auto. split; auto. split. { rewrite P1, upd_length. auto. } unfold fpos. rewrite P1. split.
        + intros i NE. rewrite nth_upd3 by auto. destruct (Nat.eqb_spec i j); congruence.
        + rewrite nth_upd3, Nat.eqb_refl by auto. exact N1.
      - exists c. split; auto. split; [apply frame_refl|]. auto. }
    destruct G as (c1 & E1 & F1 & L1 & S1 & P1). rewrite E1. cbn [rbind].
    destruct (IH ND' c1) as (c2 & E2 & F2 & L2 & P2); auto.
    + intros; apply HI; right; auto.
    + intros i I EM. rewrite S1 by congruence. apply HC; auto. right; auto.
    + exists c2. split; auto. split; [eapply frame_trans; eauto|]. split; auto. intros i Hi. specialize (P2 i Hi).
      destruct (Nat.eq_dec i j) as [->|NE].
      * destruct (in_dec Nat.eq_dec j js); [contradiction|]. destruct (in_dec Nat.eq_dec j (j :: js)) as [_|C]; [|exfalso; apply C; left; auto].
        unfold fpos in *. destruct (mo_isMoving A o j); [now rewrite P2|congruence].
      * rewrite S1 in P2 by auto. destruct (in_dec Nat.eq_dec i js) as [I|I], (in_dec Nat.eq_dec i (j :: js)) as [I'|I']; auto.
        -- exfalso; apply I'; right; auto.
        -- destruct I'; [congruence|contradiction].
Qed.
End Move.
