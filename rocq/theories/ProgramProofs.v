(** Proofs about whole programs. *)
Require Import List Arith NArith ZArith Bool Reals Lra Lia.
From Verif Require Import Base EventModel StepModel StepSpec StepSignalsProofs Num NumR MotionModel CtrlModel CtrlSpec CtrlRSpec ProfileSpec GeomSpec GeomProofs CtrlProofs CtrlTrackProofs CtrlTimeProofs RunSpec RunLegProofs RunTickProofs RunPlanProofs RunStartProofs RunProofs
  GcodeModel GcodeSpec GcodeRSpec GText GBlockProofs GParseProofs GHeadProofs GStageProofs GMeaningProofs GArcProofs GPathProofs GTotalProofs GLineProofs ProgramSpec.
Import ListNotations.
Open Scope R_scope.

Lemma Rabs_between a b u B : 0 <= u <= 1 -> Rabs a <= B -> Rabs b <= B -> Rabs (a + (b - a) * u) <= B.
Proof.
  intros U HA HB. replace (a + (b - a) * u) with ((1 - u) * a + u * b) by ring.
  eapply Rle_trans; [apply Rabs_triang|]. rewrite !Rabs_mult, (Rabs_pos_eq (1 - u)), (Rabs_pos_eq u) by lra.
  assert ((1 - u) * Rabs a <= (1 - u) * B) by (apply Rmult_le_compat_l; lra). assert (u * Rabs b <= u * B) by (apply Rmult_le_compat_l; lra). lra.
Qed.
Lemma frac s L : 0 <= s <= L -> 0 < L -> 0 <= s / L <= 1.
Proof.
  intros Hs HL. split; [apply Rmult_le_pos; [lra|apply Rlt_le, Rinv_0_lt_compat; auto]|].
  apply Rmult_le_reg_r with L; auto. replace (s / L * L) with s by (field; lra). lra.
Qed.
Lemma circle_near c r a b : 0 < r -> (Rabs (c + r * cos a) <= Rabs (c + r * cos b) + 2 * r) /\ (Rabs (c + r * sin a) <= Rabs (c + r * sin b) + 2 * r).
Proof.
  intros Hr. assert (T : forall x y, -1 <= x <= 1 -> -1 <= y <= 1 -> Rabs (c + r * x) <= Rabs (c + r * y) + 2 * r).
  { intros x y Hx Hy. replace (c + r * x) with ((c + r * y) + r * (x - y)) by ring. eapply Rle_trans; [apply Rabs_triang|].
    apply Rplus_le_compat_l. rewrite Rabs_mult, (Rabs_pos_eq r) by lra. rewrite (Rmult_comm 2). apply Rmult_le_compat_l; [lra|]. apply Rabs_le. lra. }
  split; apply T; apply COS_bound || apply SIN_bound.
Qed.

(** The path stays near its ends. *)
Lemma goes_near m P p q d : goes m P p q -> 0 <= d -> (forall a, pa_arc P = Some a -> 2 * ar_r a <= d) ->
  forall i s, (i < 3)%nat -> 0 <= s <= pa_len P -> Rabs (path_pos P i s) <= Rmax (Rabs (p i) + d) (Rabs (q i) + d).
Proof.
  intros (DS & OK & GO) D0 DA i s Hi Hs. destruct (GO i Hi) as [G0 G1]. assert (LP : 0 < pa_len P) by apply OK.
  pose proof (frac s (pa_len P) Hs LP) as U.
  assert (LIN : linear_pos P i 0 = p i -> linear_pos P i (pa_len P) = q i -> Rabs (linear_pos P i s) <= Rmax (Rabs (p i) + d) (Rabs (q i) + d)).
  { intros A B. unfold linear_pos in *. replace (pa_start P i) with (p i) by (rewrite <- A; field; lra).
    replace (pa_delta P i) with (q i - p i) by (rewrite <- A, <- B; field; lra).
    apply Rabs_between; auto; [eapply Rle_trans; [|apply Rmax_l]|eapply Rle_trans; [|apply Rmax_r]]; lra. }
  unfold path_pos in *. destruct (pa_arc P) as [a|] eqn:EA; [|auto].
  assert (RP : 0 < ar_r a) by (destruct OK as (_ & OK0); cbv zeta in OK0; rewrite EA in OK0; apply OK0).
  destruct (i =? ar_0 a)%nat; [|destruct (i =? ar_1 a)%nat; [|auto]]; (eapply Rle_trans; [|apply Rmax_l]); specialize (DA a eq_refl); rewrite <- G0.
  - eapply Rle_trans; [apply (proj1 (circle_near (ar_c0 a) (ar_r a) _ (ar_a0 a + ar_da a * (0 / pa_len P)) RP))|lra].
  - eapply Rle_trans; [apply (proj2 (circle_near (ar_c1 a) (ar_r a) _ (ar_a0 a + ar_da a * (0 / pa_len P)) RP))|lra].
Qed.

Lemma at_mm_unique x p q : at_mm x p -> at_mm x q -> forall i, (i < 3)%nat -> p i = q i.
Proof. intros A B i Hi. specialize (A i Hi). specialize (B i Hi). congruence. Qed.
Lemma at_mm_ext x p q : at_mm x p -> (forall i, (i < 3)%nat -> p i = q i) -> at_mm x q.
Proof. intros A B i Hi. rewrite <- (B i Hi). auto. Qed.
Lemma distance_ext p q p' q' : (forall i, (i < 3)%nat -> p i = p' i) -> (forall i, (i < 3)%nat -> q i = q' i) -> distance p q = distance p' q'.
Proof. intros A B. unfold distance. rewrite !A, !B by lia. reflexivity. Qed.
Lemma plane_axes pl a0 a1 : arc_axes pl = (a0, a1) -> (a0 < 3)%nat /\ (a1 < 3)%nat.
Proof. destruct pl; intros E; injection E as <- <-; lia. Qed.
Lemma dist2_sym a b c d : dist2 a b c d = dist2 c d a b.
Proof. unfold dist2, sq. ring. Qed.

Lemma announced_spec c : announced c = true <-> g_res c = OkContextUpdateAndMotion.
Proof. unfold announced. destruct (g_res c); split; congruence. Qed.

Section B.
Variable r : rmach.
Hypothesis KP : forall i, (i < 3)%nat -> 0 < rm_k r i.

Lemma in_range_max k x a b : 0 < k -> Rabs x <= Rmax a b -> in_range (k * a) -> in_range (k * b) -> 0 <= a -> 0 <= b -> in_range (k * x).
Proof.
  intros K H A B PA PB. unfold in_range in *. rewrite Rabs_mult, (Rabs_pos_eq k) by lra.
  assert (0 <= k * a) by (apply Rmult_le_pos; lra). assert (0 <= k * b) by (apply Rmult_le_pos; lra).
  rewrite Rabs_pos_eq in A, B by auto. apply Rle_trans with (k * Rmax a b); [apply Rmult_le_compat_l; lra|].
  unfold Rmax. destruct (Rle_dec a b); auto.
Qed.

(** A good block makes a motion along the path its words ask for. *)
Lemma block_path c m l ws c1 m1 : reachedR c m -> rline c m l = Ok (c1, m1) -> line_words x_num l ws -> block_ok r c ws c1 m1 ->
  announced c1 = true ->
  exists p q P, at_mm (s_cur (g_st c)) p /\ at_mm (s_cur (g_st c1)) q /\ goes m1 P p q /\ asks ws c1 (sm_type m1) p q (pa_arc P) /\ executable r m1 P.
Proof.
  intros RE E LW (N53 & BO) AN.
  pose proof (reached_sized _ _ _ _ RE) as SZ. pose proof (reached_finite _ _ RE) as FS. pose proof (reached_radius _ _ RE) as FR.
  assert (MM : made_motion c1 m1). { apply (proj1 (announced_lemma x_num (XF PI) c m l c1 m1 ws LW SZ E N53)). now apply announced_spec. }
  destruct (BO MM) as (p & q & d & HP & HQ & DR & RG & FD). clear BO.
  assert (PATH : exists p q P, at_mm (s_cur (g_st c)) p /\ at_mm (s_cur (g_st c1)) q /\ goes m1 P p q /\ asks ws c1 (sm_type m1) p q (pa_arc P) /\
            0 <= d /\ forall a, pa_arc P = Some a -> 2 * ar_r a <= d).
  { destruct DR as [(T & DI & ->)|(T & a0 & a1 & EA & [(o0 & o1 & V0 & V1 & D0 & D1 & DD)|(R & NO & VR & CH & DD)])].
    - destruct (line_lemma c m l c1 m1 SZ FS FR E MM T) as (p1 & q1 & HP1 & HQ1 & _ & GO).
      rewrite (distance_ext p q p1 q1 (at_mm_unique _ _ _ HP HP1) (at_mm_unique _ _ _ HQ HQ1)) in DI.
      destruct (GO DI) as (P & G & NA). exists p1, q1, P. repeat (split; [assumption|]). rewrite NA. split; [exact T|]. split; [lra|]. intros a [=].
    - destruct (arc_offset_lemma c m l c1 m1 ws a0 a1 o0 o1 LW SZ FS E MM T EA V0 V1) as (p1 & q1 & sa & da & HP1 & HQ1 & AI & SW & _ & GO).
      cbv zeta in *. destruct (plane_axes _ _ _ EA) as [L0 L1].
      rewrite !(at_mm_unique _ _ _ HP HP1), !(at_mm_unique _ _ _ HQ HQ1) in * by auto.
      destruct (GO (sqrt_lt_R0 _ D0) D1) as (P & G & PA). exists p1, q1, P. repeat (split; [assumption|]). rewrite PA. cbn [asks ar_0 ar_1 ar_c0 ar_c1 ar_a0 ar_da ar_r].
      split; [split; [exact T|split; [exact EA|split; [exact SW|left; exists o0, o1; auto]]]|]. split; [rewrite DD; apply Rmult_le_pos; [lra|apply sqrt_pos]|].
      intros a [= <-]. cbn [ar_r]. lra.
    - destruct (arc_radius_lemma c m l c1 m1 ws a0 a1 R p q LW SZ FS E MM T EA NO VR HP HQ CH) as (c0 & c1' & sa & da & AI & _ & _ & SW & DP & DN & P & G & PA).
      exists p, q, P. repeat (split; [assumption|]). rewrite PA. cbn [asks ar_0 ar_1 ar_c0 ar_c1 ar_a0 ar_da ar_r].
      split; [split; [exact T|split; [exact EA|split; [exact SW|right; exists R; auto]]]|]. split; [rewrite DD; apply Rmult_le_pos; [lra|apply Rabs_pos]|].
      intros a [= <-]. cbn [ar_r]. lra. }
  destruct PATH as (p1 & q1 & P & HP1 & HQ1 & G & AS & D0 & DA). exists p1, q1, P. repeat (split; [assumption|]).
  destruct G as (DS & OK & GO). pose proof (conj DS (conj OK GO) : goes m1 P p1 q1) as G.
  assert (TY : sm_type m1 = traverse \/ is_feed_type (sm_type m1)).
  { destruct DR as [([T|T] & _)|(T & _)]; [left; exact T|right; left; exact T|right; right; exact T]. }
  assert (LEN : sm_length m1 = XF (pa_len P)) by apply DS. assert (LP : 0 < pa_len P) by apply OK.
  destruct (speed_lemma c m l c1 m1 ws LW SZ E MM) as [VT VF].
  split; [|split; [exact DS|split; [exact OK|split]]].
  - destruct TY as [->|[->|[->| ->]]]; reflexivity.
  - destruct TY as [T|T]; [left; auto|right]. destruct (FD T) as (f & F0 & AF). destruct (VF T f (pa_len P) AF LEN) as [V _]. eexists. split; [|exact V].
    assert (0 < pa_len P * f) by (apply Rmult_lt_0_compat; auto). destruct (s_feed (g_st c1)); unfold mm; destruct (s_unit (g_st c1)); lra.
  - intros i s Hi Hs. destruct (RG i Hi) as [RA RB]. rewrite (at_mm_unique _ _ _ HP HP1), (at_mm_unique _ _ _ HQ HQ1) in * by auto.
    apply in_range_max with (Rabs (p1 i) + d) (Rabs (q1 i) + d); auto.
    + apply (goes_near m1 P p1 q1 d); auto.
    + pose proof (Rabs_pos (p1 i)). lra.
    + pose proof (Rabs_pos (q1 i)). lra.
Qed.

(** A path begins where its predecessor ended. *)
Lemma chained_ext : forall Ps p p', (forall i, (i < 3)%nat -> p i = p' i) -> chained p Ps -> chained p' Ps.
Proof.
  destruct Ps as [|P Ps]; intros p p' H C; [exact I|]. destruct C as [A B]. split; [|exact B]. intros i Hi. rewrite A by auto. auto.
Qed.
Lemma end_ext : forall Ps p p', (forall i, (i < 3)%nat -> p i = p' i) -> forall i, (i < 3)%nat -> end_of p Ps i = end_of p' Ps i.
Proof. destruct Ps as [|P Ps]; intros p p' H i Hi; cbn [end_of]; auto. Qed.
Lemma drawn_ext c m ls p Ps : drawn c m ls p Ps -> forall p', (forall i, (i < 3)%nat -> p i = p' i) -> drawn c m ls p' Ps.
Proof.
  induction 1 as [c m p|c m l ls c1 m1 p Ps H1 H2 H3 IH|c m l ls ws c1 m1 p q P Ps H1 H2 H3 H4 H5 H6 H7 H8 IH]; intros p' EQ.
  - constructor.
  - eapply drawn_skip; eauto.
  - eapply drawn_move; eauto.
    + eapply at_mm_ext; eauto.
    + destruct H6 as (A & B & C). split; [exact A|split; [exact B|]]. intros i Hi. rewrite <- EQ by auto. auto.
    + unfold asks in *. destruct (pa_arc P) as [a|] eqn:EA; [|exact H7]. destruct H7 as (T & AX & SW & CC). cbv zeta.
      destruct (plane_axes _ _ _ AX) as [L0 L1]. rewrite <- !EQ by auto. auto.
Qed.

Lemma run_cons c m l ls c' m' outs : rprogram c m (l :: ls) = Ok (c', m', outs) ->
  exists c1 m1 o, rline c m l = Ok (c1, m1) /\ rprogram c1 m1 ls = Ok (c', m', o) /\ outs = (c1, m1) :: o.
Proof.
  cbn [g_run]. destruct (g_line x_num (XF PI) c m l) as [[c1 m1]|] eqn:E; [|discriminate]. cbn [rbind fst snd].
  destruct (g_run x_num (XF PI) c1 m1 ls) as [[[c2 m2] o]|] eqn:R; [|discriminate]. cbn [rbind fst snd]. intros [= <- <- <-]. exists c1, m1, o. auto.
Qed.

Lemma program_path : forall ls c m c' m' outs p, reachedR c m -> rprogram c m ls = Ok (c', m', outs) -> program_ok r c m ls ->
  at_mm (s_cur (g_st c)) p ->
  exists Ps, drawn c m ls p Ps /\ Forall2 (executable r) (sent outs) Ps /\ chained p Ps /\ at_mm (s_cur (g_st c')) (end_of p Ps).
Proof.
  induction ls as [|l ls IH]; intros c m c' m' outs p RE H PO HP.
  - cbn in H. injection H as <- <- <-. exists []. split; [constructor|]. split; [constructor|]. split; [exact I|exact HP].
  - destruct (run_cons _ _ _ _ _ _ _ H) as (c1 & m1 & o & E & R & ->).
    assert (LW : exists ws, line_words x_num l ws). { destruct (line_parse _ _ _ _ _ _ _ E) as (b & EB & _). exists (b_words b), b. auto. }
    destruct LW as (ws & LW). assert (BO : block_ok r c ws c1 m1) by (apply (PO [] l ls c m [] ws c1 m1); auto).
    assert (RE1 : reachedR c1 m1) by (eapply reached_line; eauto).
    assert (PO1 : program_ok r c1 m1 ls).
    { intros pre l0 post c2 m2 o2 ws2 c3 m3 E2 R2 LW2 L2. apply (PO (l :: pre) l0 post c2 m2 ((c1, m1) :: o2) ws2 c3 m3); auto; [rewrite E2; reflexivity|].
      cbn [g_run]. rewrite E. cbn [rbind fst snd]. rewrite R2. reflexivity. }
    destruct (announced c1) eqn:AN.
    + destruct (block_path c m l ws c1 m1 RE E LW BO AN) as (p1 & q1 & P & HP1 & HQ1 & G & AS & EX).
      destruct (IH c1 m1 c' m' o q1 RE1 R PO1 HQ1) as (Ps & DR & FE & CH & EN).
      assert (PE : forall i, (i < 3)%nat -> path_pos P i (pa_len P) = q1 i) by (intros i Hi; apply (proj2 (proj2 G) i Hi)).
      exists (P :: Ps). split; [|split; [|split]].
      * apply (drawn_ext c m (l :: ls) p1); [|apply (at_mm_unique _ _ _ HP1 HP)]. eapply drawn_move; eauto.
      * unfold sent. cbn [filter fst]. rewrite AN. constructor; auto.
      * split.
        -- intros i Hi. rewrite (proj1 (proj2 (proj2 G) i Hi)). apply (at_mm_unique _ _ _ HP1 HP); auto.
        -- eapply chained_ext; [|exact CH]. intros i Hi. symmetry. auto.
      * cbn [end_of]. eapply at_mm_ext; [exact EN|]. apply end_ext. intros i Hi. symmetry. auto.
    + assert (CU : s_cur (g_st c1) = s_cur (g_st c)).
      { pose proof (reached_sized _ _ _ _ RE) as SZ. destruct (join_lemma x_num (XF PI) c m l c1 m1 SZ E) as [(_ & X)|(MM & _)]; [exact X|].
        exfalso. apply (announced_lemma x_num (XF PI) c m l c1 m1 ws LW SZ E (proj1 BO)) in MM. apply announced_spec in MM. congruence. }
      rewrite <- CU in HP. destruct (IH c1 m1 c' m' o p RE1 R PO1 HP) as (Ps & DR & FE & CH & EN).
      exists Ps. split; [eapply drawn_skip; eauto|]. unfold sent. cbn [filter fst]. rewrite AN. auto.
Qed.
End B.

(** *** The run *)
Section J.
Variables (M : machine xr) (r : rmach) (w : R) (N : nat).
Hypothesis MI : machine_is M r.
Hypothesis W : 0 < w.
Hypothesis RATE : forall i, (i < 3)%nat -> tick_rate r w i + INR N * creep r w i <= 1.
Notation eps := (fun i => 55/100 + INR N * creep r w i).
Notation power_up m := (c_init x_arith m (XF w)).

(** The commands, tick by tick. *)
Definition traced m x0 legs c recs : Prop := exists css, covers r w N (power_up m) c recs css /\ sg_ticks (c_sig c) = 0%N /\
  ticked r w N x0 legs 0 (c_pos (power_up m)) css.

(** From power-up, counters and pins together. *)
Lemma job_init m x0 qs ops : (m < two32)%N -> job_ok M r w 1 (power_up m) qs ops -> (length (qs ++ appended ops) <= N)%nat ->
  chained x0 (map snd (qs ++ appended ops)) -> within r (fun _ => 55/100) x0 (power_up m) ->
  exists c recs legs, c_run x_arith M (power_up m) (job qs ops) = Ok (c, recs) /\
    map lg_path legs = map snd (qs ++ appended ops) /\
    Forall2 (fun q l => leg_ok r (sm_vFeed (fst q)) 1 l) (qs ++ appended ops) legs /\
    IZR (Z.of_N (calcs ops)) * w <= elapsed w recs /\
    (elapsed w recs <= total legs -> c_state c = ms_running) /\
    (total legs < elapsed w recs -> at_rest c w 1 /\ within r eps (end_of x0 (map snd (qs ++ appended ops))) c) /\
    (forall p q, ops = p ++ q -> exists cp rp, c_run x_arith M (power_up m) (job qs p) = Ok (cp, rp) /\
       within r eps (where_at x0 legs (elapsed w rp)) cp) /\
    (forall a, (a < 3)%nat -> calm r w N a -> exists pend, (length pend <= 1)%nat /\
       net_dirs (pulses (N.of_nat a) false (replay 0 recs) ++ pend) = nth a (c_pos c) 0%Z /\ (total legs < elapsed w recs -> pend = [])) /\
    traced m x0 legs c recs.
Proof.
  intros MT JO JN JC JP.
  assert (RE : at_rest (power_up m) w 1) by (constructor; reflexivity).
  assert (PL0 : within r (fun i => 55/100 + INR 0 * creep r w i) x0 (power_up m)).
  { intros i Hi. specialize (JP i Hi). cbn [INR]. lra. }
  destruct (job_covers M r w N MI W RATE _ 1 x0 0 qs ops ltac:(lra) RE eq_refl MT JO JN JC PL0)
    as (c & recs & legs & css & J1 & J2 & J3 & J4 & J5 & J6 & J7 & J8 & J9 & J10 & J11 & J12).
  exists c, recs, legs. split; auto. split; auto. split; auto. split; auto. split; auto.
  split. { intro H. destruct (J9 H) as (K1 & _ & K3). split; auto. intros i Hi. specialize (K3 i Hi). eapply Rle_trans; [exact K3|].
    apply Rplus_le_compat_l. apply Rmult_le_compat_r; [apply (creep_pos M r w MI W); auto|]. apply le_INR. lia. }
  split; auto. split; [|exists css; auto]. intros a Ha CA. destruct (covers_pulses r w N RATE m c recs css a MT J4 J5 Ha CA) as (pend & P1 & P2 & P3). exists pend. split; auto. split; auto.
  intro H. apply P3. apply (J9 H).
Qed.

(** Paths attached to plain operations. *)
Lemma annotate : forall ops Ps (Q : smotion xr -> path -> Prop), Forall simple_op ops -> Forall2 Q (appends ops) Ps ->
  exists rops, map rop_op rops = ops /\ map fst (appended rops) = appends ops /\ map snd (appended rops) = Ps /\ calcs rops = N.of_nat (asked ops).
Proof.
  induction ops as [|o ops IH]; intros Ps Q F H.
  - inversion H; subst. exists []. auto.
  - inversion F as [|? ? [->|(m & ->)] F']; subst.
    + destruct (IH Ps Q F' H) as (rops & A & B & C & D). exists (RCalc :: rops). cbn [map rop_op]. rewrite A. split; [reflexivity|]. split; [exact B|]. split; [exact C|].
      cbn [calcs]. rewrite D. unfold asked. cbn [filter length]. lia.
    + cbn [appends flat_map app] in H. inversion H as [|? P ? Ps' HP H']; subst. destruct (IH Ps' Q F' H') as (rops & A & B & C & D).
      exists (RAppend m P :: rops). cbn [map rop_op]. rewrite A. split; [reflexivity|]. cbn [appended flat_map app map fst snd]. fold (appended rops). rewrite B, C.
      split; [reflexivity|]. split; [reflexivity|]. cbn [calcs]. rewrite D. reflexivity.
Qed.
Lemma zip : forall (ms : list (smotion xr)) Ps (Q : smotion xr -> path -> Prop), Forall2 Q ms Ps ->
  exists qs, map fst qs = ms /\ map snd qs = Ps.
Proof.
  induction 1 as [|m P ms Ps H F (qs & A & B)]; [exists []; auto|]. exists ((m, P) :: qs). cbn [map fst snd]. rewrite A, B. auto.
Qed.
Lemma F2_Forall (Q : smotion xr -> path -> Prop) : forall qs, Forall2 Q (map fst qs) (map snd qs) -> Forall (fun q => Q (fst q) (snd q)) qs.
Proof. induction qs as [|q qs IH]; intro H; inversion H; subst; constructor; auto. Qed.
Lemma F2_map (Q : smotion xr -> leg -> Prop) : forall (qs : list (smotion xr * path)) ls, Forall2 (fun q l => Q (fst q) l) qs ls -> Forall2 Q (map fst qs) ls.
Proof. induction 1; constructor; auto. Qed.

Lemma motions_run m ms Ps first ops : Forall2 (executable r) ms Ps -> Forall2 (brief r w 1) ms Ps -> chained (fun _ => 0) Ps ->
  (length ms <= N)%nat -> (m < two32)%N -> passed M (power_up m) ms first ops ->
  exists c recs legs, c_run x_arith M (power_up m) (script first ops) = Ok (c, recs) /\
    map lg_path legs = Ps /\
    Forall2 (fun m l => leg_ok r (sm_vFeed m) 1 l) ms legs /\
    INR (asked ops) * w <= elapsed w recs /\
    (forall p q, ops = p ++ q -> exists cp rp, c_run x_arith M (power_up m) (script first p) = Ok (cp, rp) /\
       within r eps (where_at (fun _ => 0) legs (elapsed w rp)) cp) /\
    (elapsed w recs <= total legs -> c_state c = ms_running) /\
    (total legs < elapsed w recs -> at_rest c w 1 /\ within r eps (end_of (fun _ => 0) Ps) c) /\
    (forall a, (a < 3)%nat -> calm r w N a -> exists pend, (length pend <= 1)%nat /\
       net_dirs (pulses (N.of_nat a) false (replay 0 recs) ++ pend) = nth a (c_pos c) 0%Z /\ (total legs < elapsed w recs -> pend = [])) /\
    traced m (fun _ => 0) legs c recs.
Proof.
  intros FE FB CH LN MT [G1 G2 G3 G4 G5].
  assert (FA : Forall2 (fun m P => executable r m P /\ brief r w 1 m P) ms Ps).
  { clear - FE FB. revert FB. induction FE; intros FB; inversion FB; subst; constructor; auto. }
  clear FE FB. rename FA into FE.
  rewrite G1 in FE. apply Forall2_app_inv_l in FE. destruct FE as (P1 & P2 & F1 & F2 & ->).
  destruct (zip _ _ _ F1) as (qs & Q1 & Q2). destruct (annotate ops P2 _ G4 F2) as (rops & R1 & R2 & R3 & R4).
  assert (MS : map snd (qs ++ appended rops) = P1 ++ P2) by (rewrite map_app, Q2, R3; auto).
  assert (MF : map fst (qs ++ appended rops) = ms) by (rewrite map_app, Q1, R2, G1; auto).
  assert (JS : forall p, job qs p = script first (map rop_op p)).
  { intro p. unfold job, script. rewrite <- Q1, map_map. reflexivity. }
  assert (JP : within r (fun _ => 55/100) (fun _ => 0) (power_up m)).
  { intros i Hi. replace (nth i (c_pos (power_up m)) 0%Z) with 0%Z by (destruct i as [|[|[|i]]]; [reflexivity..|lia]).
    rewrite Rmult_0_r, Rminus_0_r, Rabs_R0. lra. }
  assert (JE : Forall (fun q => executable r (fst q) (snd q) /\ brief r w 1 (fst q) (snd q)) (qs ++ appended rops)).
  { apply (F2_Forall (fun m P => executable r m P /\ brief r w 1 m P)). rewrite MF, MS, G1. apply Forall2_app; auto. }
  assert (JO : job_ok M r w 1 (power_up m) qs rops).
  { constructor.
    - intros ->. cbn in Q1. congruence.
    - rewrite <- (map_length fst), Q1. exact G3.
    - eapply Forall_impl; [|exact JE]. cbv beta. tauto.
    - eapply Forall_impl; [|exact JE]. cbv beta. tauto.
    - intros p m0 P rest c1 recs E R. apply (G5 (map rop_op p) m0 (map rop_op rest) c1 recs); [rewrite <- R1, E, map_app; reflexivity|].
      rewrite <- JS. unfold job in R |- *. rewrite <- app_assoc in R. exact R. }
  destruct (job_init m (fun _ => 0) qs rops MT JO ltac:(rewrite <- (map_length fst), MF; exact LN) ltac:(rewrite MS; exact CH) JP) as (c & recs & legs & J1 & J2 & J3 & J4 & J5 & J6 & J7 & J8 & J9).
  exists c, recs, legs. rewrite JS, R1 in J1. split; [exact J1|].
  split. { rewrite J2, MS. reflexivity. } split. { rewrite <- MF. exact (F2_map (fun m l => leg_ok r (sm_vFeed m) 1 l) _ _ J3). }
  split. { rewrite R4, nat_N_Z, <- INR_IZR_INZ in J4. exact J4. }
  split. { intros p q E.
    assert (SP : exists rp rq, rops = rp ++ rq /\ map rop_op rp = p).
    { clear - R1 E. revert p E R1. generalize dependent ops. intros ops p -> R1. revert rops R1. induction p as [|o p IH]; intros rops R1.
      - exists [], rops. auto.
      - destruct rops as [|o1 rops]; [discriminate|]. cbn [map app] in R1. injection R1 as E1 E2. destruct (IH rops E2) as (rp & rq & -> & E3).
        exists (o1 :: rp), rq. cbn [map app]. rewrite E1, E3. auto. }
    destruct SP as (rp & rq & E1 & E2). destruct (J7 rp rq E1) as (cp & rcp & K1 & K2). exists cp, rcp. rewrite JS, E2 in K1. auto. }
  split; auto. split; [|split; [exact J8|exact J9]]. intro T. rewrite MS in J6. auto.
Qed.

Lemma program_runs m ls c' m' outs first ops : rprogram (gcode0 x_num) (sm_new x_num) ls = Ok (c', m', outs) ->
  program_ok r (gcode0 x_num) (sm_new x_num) ls -> (length (sent outs) <= N)%nat -> (m < two32)%N ->
  given M r w (power_up m) (sent outs) first ops ->
  exists c recs legs x, c_run x_arith M (power_up m) (script first ops) = Ok (c, recs) /\
    drawn (gcode0 x_num) (sm_new x_num) ls (fun _ => 0) (map lg_path legs) /\
    Forall2 (fun m l => leg_ok r (sm_vFeed m) 1 l) (sent outs) legs /\
    at_mm (s_cur (g_st c')) x /\
    INR (asked ops) * w <= elapsed w recs /\
    (forall p q, ops = p ++ q -> exists cp rp, c_run x_arith M (power_up m) (script first p) = Ok (cp, rp) /\
       within r eps (where_at (fun _ => 0) legs (elapsed w rp)) cp) /\
    (elapsed w recs <= total legs -> c_state c = ms_running) /\
    (total legs < elapsed w recs -> at_rest c w 1 /\ within r eps x c) /\
    (forall a, (a < 3)%nat -> calm r w N a -> exists pend, (length pend <= 1)%nat /\
       net_dirs (pulses (N.of_nat a) false (replay 0 recs) ++ pend) = nth a (c_pos c) 0%Z /\ (total legs < elapsed w recs -> pend = [])).
Proof.
  intros H PO LN MT [G1 G2 G3 G4 G5 G6].
  assert (KP : forall i, (i < 3)%nat -> 0 < rm_k r i) by (intros i Hi; apply (proj2 (proj2 MI)); auto).
  assert (H0 : at_mm (s_cur (g_st (gcode0 x_num))) (fun _ => 0)) by (intros i L; destruct i as [|[|[|i]]]; [reflexivity..|lia]).
  destruct (program_path r KP ls _ _ c' m' outs (fun _ => 0) (reached0 x_num (XF PI)) H PO H0) as (Ps & DR & FE & CH & EN).
  assert (FB : Forall2 (brief r w 1) (sent outs) Ps).
  { assert (X : forall ms, (forall m P, In m ms -> describes m P -> path_ok P -> brief r w 1 m P) -> Forall2 (executable r) ms Ps -> Forall2 (brief r w 1) ms Ps).
    { clear. intros ms G F. induction F as [|x P xs Ps EX F IH]; constructor.
      - destruct EX as (_ & DS & OK & _). apply G; auto. now left.
      - apply IH. intros y Q Y. apply G. now right. }
    exact (X _ G6 FE). }
  destruct (motions_run m (sent outs) Ps first ops FE FB CH LN MT) as (c & recs & legs & J1 & J2 & J3 & J4 & J5 & J6 & J7 & J8 & J9); [constructor; auto|].
  exists c, recs, legs, (end_of (fun _ => 0) Ps). rewrite J2. repeat (split; [assumption|]). exact J8.
Qed.

(** Targets on the step grid. *)
Lemma program_lands m ls c' m' outs first ops a z x : rprogram (gcode0 x_num) (sm_new x_num) ls = Ok (c', m', outs) ->
  program_ok r (gcode0 x_num) (sm_new x_num) ls -> (length (sent outs) <= N)%nat -> (m < two32)%N ->
  given M r w (power_up m) (sent outs) first ops ->
  (a < 3)%nat -> calm r w N a -> INR N * creep r w a <= 4/10 -> coord_at x_num (s_cur (g_st c')) a = XF x -> rm_k r a * x = IZR z ->
  exists c recs legs, c_run x_arith M (power_up m) (script first ops) = Ok (c, recs) /\
    drawn (gcode0 x_num) (sm_new x_num) ls (fun _ => 0) (map lg_path legs) /\
    Forall2 (fun m l => leg_ok r (sm_vFeed m) 1 l) (sent outs) legs /\
    (total legs < INR (asked ops) * w -> nth a (c_pos c) 0%Z = z /\ net_dirs (pulses (N.of_nat a) false (replay 0 recs)) = z).
Proof.
  intros H PO LN MT GI Ha CA SM EX EZ. destruct (program_runs m ls c' m' outs first ops H PO LN MT GI) as (c & recs & legs & y & K1 & K2 & K3 & K4 & K5 & K6 & K7 & K8 & K9).
  exists c, recs, legs. split; auto. split; auto. split; auto. intro T. assert (T' : total legs < elapsed w recs) by lra.
  destruct (K8 T') as (_ & WI). destruct (K9 a Ha CA) as (pend & _ & PP & PN). rewrite (PN T'), app_nil_r in PP.
  assert (y a = x) by (specialize (K4 a Ha); congruence). specialize (WI a Ha). subst x. cbv beta in WI. rewrite EZ, <- minus_IZR, <- abs_IZR in WI.
  assert (L : (Z.abs (z - nth a (c_pos c) 0%Z) < 1)%Z) by (apply lt_IZR; lra). split; lia.
Qed.
End J.
