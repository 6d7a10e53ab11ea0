(** Proofs on the distance between steps of an axis, in the arithmetic of the target. *)
Require Import List Arith NArith ZArith Bool Reals Lra Lia ZifyBool ZifyNat ZifyN.
From Coq Require Import Floats.SpecFloat.
From Flocq Require Import Zaux Raux Defs BinarySingleNaN.
From Verif Require Import Base BaseProofs EventModel StepModel StepSpec Num NumR NumSF MotionModel CtrlModel CtrlSpec CtrlRSpec CtrlProofs CtrlTrackProofs CtrlQueueProofs CtrlTimeProofs RingProofs.
From Verif Require Import ProfileSpec GeomSpec PlanProofs RunSpec FloatSpec FloatRunSpec FloatProofs FloatClockProofs FloatTrackProofs FloatErrProofs FloatMoveProofs FloatRunProofs FloatJobProofs FloatArcSpec FloatArcProofs GapSpec.
Import ListNotations.
Open Scope R_scope.

Lemma last_shift {T} (l : list T) : forall x d, last (x :: l) d = last l x.
Proof. induction l as [|y l IH]; intros x d; [reflexivity|]. transitivity (last l y); [exact (IH y d)|symmetry; exact (IH y x)]. Qed.
Section Any.
Context {D F : Type} (A : arith D F) (M : machine F).
Lemma advance_moves f : forall c c', c_advance A M f c = Ok c' -> c_pos c' = c_pos c \/ exists c3, c_move A M c3 = Ok c' /\ c_pos c3 = c_pos c /\ c_state c3 = c_state c.
Proof.
  induction f as [|f IH]; intros c c' E; cbn [c_advance] in E.
  - destruct (st_isBeyond _ _ _); [|right; exists c; auto]. destruct (1 <? c_level c)%N; [discriminate|]. inversion E; subst. left. reflexivity.
  - destruct (st_isBeyond _ _ _); [|right; exists c; auto]. destruct (1 <? c_level c)%N; [|inversion E; subst; left; reflexivity].
    destruct (IH _ _ E) as [H|(c3 & H1 & H2 & H3)]; [left; exact H|right]. exists c3. split; [exact H1|]. split; [exact H2|exact H3].
Qed.
Lemma moveAxis_other o dist c i c' : c_moveAxis A M o dist c i = Ok c' -> frame c c' /\ length (c_pos c') = length (c_pos c) /\ forall j, j <> i -> nth j (c_pos c') 0%Z = nth j (c_pos c) 0%Z.
Proof.
  unfold c_moveAxis, c_trackAxis. intro E. destruct (mo_isMoving A o i); [|inversion E; subst; split; [apply frame_refl|auto]].
  destruct (c_decide A M c i _) as [[d|]|]; cbn [rbind] in E; [|inversion E; subst; split; [apply frame_refl|auto]|discriminate].
  unfold c_stepAxis in E. destruct (int32_ok _); [|discriminate]. inversion E; subst. split; [repeat split|]. cbn [c_with_pos c_pos]. rewrite upd_length. split; [reflexivity|].
  intros j NE. cbn [c_with_sig c_pos]. apply nth_upd_neq. auto.
Qed.
Lemma moveAxes_other o dist js : forall c c', c_moveAxes A M o dist c js = Ok c' -> frame c c' /\ length (c_pos c') = length (c_pos c) /\ forall j, ~ In j js -> nth j (c_pos c') 0%Z = nth j (c_pos c) 0%Z.
Proof.
  induction js as [|i js IH]; intros c c' E; cbn [c_moveAxes] in E.
  - inversion E; subst. split; [apply frame_refl|auto].
  - destruct (c_moveAxis A M o dist c i) as [c1|] eqn:E1; [|discriminate]. cbn [rbind] in E.
    destruct (moveAxis_other _ _ _ _ _ E1) as (F1 & L1 & P1). destruct (IH _ _ E) as (F2 & L2 & P2).
    split; [eapply frame_trans; eauto|]. split; [congruence|]. intros j NI. rewrite P2 by (intro; apply NI; right; auto). apply P1. intros ->. apply NI. left. auto.
Qed.
Lemma moveAxes_each o dist js : forall c c', NoDup js -> c_moveAxes A M o dist c js = Ok c' -> forall i, In i js ->
  exists a b, nth i (c_pos a) 0%Z = nth i (c_pos c) 0%Z /\ length (c_pos a) = length (c_pos c) /\ c_moveAxis A M o dist a i = Ok b /\ nth i (c_pos c') 0%Z = nth i (c_pos b) 0%Z.
Proof.
  induction js as [|j js IH]; intros c c' ND E i I; [destruct I|]. inversion ND as [|? ? NI ND']; subst. cbn [c_moveAxes] in E.
  destruct (c_moveAxis A M o dist c j) as [c1|] eqn:E1; [|discriminate]. cbn [rbind] in E. destruct (moveAxis_other _ _ _ _ _ E1) as (_ & L1 & P1).
  destruct (Nat.eq_dec i j) as [->|NE].
  - exists c, c1. split; auto. split; auto. split; auto. apply (moveAxes_other _ _ _ _ _ E). exact NI.
  - destruct I as [->|I]; [congruence|]. destruct (IH _ _ ND' E i I) as (a & b & Q1 & Q2 & Q3 & Q4). exists a, b. rewrite Q1, Q2. auto.
Qed.
Lemma tick_stopped c c' : c_isRunning c = false -> c_tick A M c = Ok c' -> c_pos c' = c_pos c /\ c_isRunning c' = false.
Proof. intros S E. unfold c_tick in E. change (c_isRunning (c_with_sig c (sg_next (c_sig c)))) with (c_isRunning c) in E. rewrite S in E. inversion E; subst. auto. Qed.
End Any.

Section Gap.
Variables (X : sf_funs) (M : machine sf) (k : nat -> R) (B H W Tmax : R) (w : sf).
Notation A := (sf_arith X).
Notation K := (aF A).
Notation G := (tick_gap W Tmax).
Notation Q := (last_gap W Tmax).
Hypothesis HK : forall i, (i < 3)%nat -> float32 (nthF A (m_stepsPerMm M) i) (k i).
Hypothesis K0 : forall i, (i < 3)%nat -> 0 <= k i.
Hypothesis HB : 0 <= B <= 1048576.
Hypothesis HH : 0 <= H <= 262144.
Hypothesis FW : float32 w W.
Hypothesis RW : / 1048576 <= W <= / 4.
Hypothesis RT : Tmax <= 524288 /\ Tmax <= 4000000000 * W.
Notation runs := (frun X k B H W Tmax).
Notation lives := (live X k B H W Tmax w).
Notation ya := (yat k).
Let e : R := slack B + dlt B H.
Hypothesis SMALL : e < / 40.

Lemma g_head c pre it its n o O m0 jn : lives c pre it its n o O m0 jn -> runs (c_getHead A c) it.
Proof. intro L. eapply live_head in L; eauto. apply L. Qed.
Lemma g_gaps o it : runs o it -> 0 < W /\ W <= G /\ G <= Tmax / 4 /\ G <= Q /\ G <= 1.
Proof. intro FR. eapply GQ; eauto. Qed.
Lemma g_reads O n o : 0 <= O <= 1 -> float32 o O -> (n < 2 ^ 32)%N -> 0 <= reads W O n.
Proof. intros. eapply reads_pos; eauto. Qed.
Lemma g_min o it t : runs o it -> 0 <= t -> 0 <= Rmin t (it_T it) <= it_T it.
Proof. intros. eapply rmin_in; eauto. Qed.
Lemma g_ends o it : runs o it -> it_s it 0 = 0 /\ it_s it (it_T it) = fi_l it.
Proof. intros. eapply s_ends; eauto. Qed.
Lemma g_lip o it x y : runs o it -> 0 <= x <= y -> y <= it_T it -> 0 <= it_s it y - it_s it x <= fi_vm it * (y - x).
Proof. intros. eapply s_lip; eauto. Qed.
Lemma g_lin o it i x y z : runs o it -> (i < 3)%nat -> Rabs (x - y) <= z -> Rabs (k i * path_pos (it_P it) i x - k i * path_pos (it_P it) i y) <= k i * (fi_c it * z).
Proof. intros. eapply pos_lin; eauto. Qed.
Lemma g_slack : 0 <= slack B.
Proof. unfold slack. lra. Qed.

(** A step is made only when it is due, as far as the rounding goes. *)
Definition due (y a b : R) : Prop := b = a \/ b = a + 1 /\ a + 55/100 - e <= y \/ b = a - 1 /\ y <= a - 55/100 + e.
Lemma axis_due o it dist x (a b : ctrl sf) i : runs o it -> (i < 3)%nat -> float32 dist x -> Rabs x <= 11/10 * it_len it -> mo_isMoving A o i = true -> length (c_pos a) = 3%nat -> (Z.abs (nth i (c_pos a) 0) <= 2000000)%Z ->
  c_moveAxis A M o dist a i = Ok b -> forall y, Rabs (k i * path_pos (it_P it) i x - y) <= H / 65000 -> due y (fpos i a) (fpos i b).
Proof.
  intros FR Hi FX LX EM HL PZ E y Hy. unfold c_moveAxis in E. rewrite EM in E. destruct (fr_pos _ _ _ _ _ _ _ _ FR i _ _ Hi FX LX) as (r & Fr & Br & Nr).
  destruct (decide_fdec X M i (k i) (HK i Hi) a _ r B Fr Br ltac:(lra) PZ) as (u & v & N & ED). pose proof (fdec_spec (nth i (c_pos a) 0%Z) u v B _ N) as SP.
  unfold c_trackAxis in E. rewrite ED in E. cbn [rbind] in E. set (d := fdec _ _ _) in *. apply Rabs_le_inv in Nr. apply Rabs_le_inv in Hy. unfold due, fpos, e, dlt.
  destruct d as [d|]; [|inversion E; subst; left; reflexivity].
  unfold c_stepAxis in E. destruct (int32_ok _); [|discriminate]. inversion E; subst. right. cbn [c_with_pos c_pos c_with_sig]. rewrite nth_upd_eq by lia. rewrite plus_IZR.
  destruct d; [left|right]; split; lra.
Qed.

(** Where the controller is along the motion it executes. *)
Definition yof (it : fitem) (O : R) (n : N) (i : nat) : R := ya it i (Rmin (reads W O n) (it_T it)).
Lemma live_sample c pre it its n o O m0 jn : lives c pre it its n o O m0 jn ->
  exists x, float32 (p_s K (mo_prof (c_getHead A c)) (st_time (c_st c))) x /\ Rabs x <= 11/10 * it_len it /\
    forall i, (i < 3)%nat -> Rabs (k i * path_pos (it_P it) i x - yof it O n i) <= H / 65000.
Proof.
  intro L. pose proof (g_head _ _ _ _ _ _ _ _ _ L) as FR. pose proof L as [_ _ _ _ LC LO OG LN LT _ _ _ _ _]. pose proof (g_gaps _ _ FR) as GG.
  pose proof (g_reads O n o ltac:(lra) LO ltac:(lia)) as RP.
  pose proof (clock_reads X w o W O FW LO ltac:(lra) ltac:(lra) (mkST o o 0 w) n ltac:(repeat split) ltac:(lia)) as CR. rewrite <- LC in CR.
  destruct (fr_sample _ _ _ _ _ _ _ _ FR _ _ CR ltac:(lra)) as (x & Fx & Nx). exists x. split; [exact Fx|].
  pose proof (g_min _ _ (reads W O n) FR RP) as RM. destruct (fr_len _ _ _ _ _ _ _ _ FR) as (LP & LL).
  assert (SX : 0 <= it_s it (Rmin (reads W O n) (it_T it)) <= fi_l it).
  { destruct (g_ends _ _ FR) as (E1 & E2). pose proof (g_lip _ _ 0 (Rmin (reads W O n) (it_T it)) FR ltac:(lra) ltac:(lra)).
    pose proof (g_lip _ _ (Rmin (reads W O n) (it_T it)) (it_T it) FR ltac:(lra) ltac:(lra)). lra. }
  split. { apply Rabs_le_inv in Nx. apply Rabs_le_inv in LL. apply Rabs_le. lra. }
  intros i Hi. pose proof (g_lin _ _ i x (it_s it (Rmin (reads W O n) (it_T it))) _ FR Hi Nx) as PL. pose proof (fr_steps _ _ _ _ _ _ _ _ FR i Hi). unfold yof, yat. eapply Rle_trans; [exact PL|]. lra.
Qed.
Lemma live_count c pre it its n o O m0 jn i : lives c pre it its n o O m0 jn -> (i < 3)%nat ->
  Rabs (yof it O n i - fpos i c) <= 55/100 + e + (1/20 + H / 450000 + 32/1000) /\ (Z.abs (nth i (c_pos c) 0) <= 2000000)%Z.
Proof.
  intros L Hi. pose proof (lv_close _ _ _ _ _ _ _ _ _ _ _ _ _ _ _ _ L i Hi) as CL. destruct (lv_joined _ _ _ _ _ _ _ _ _ _ _ _ _ _ _ _ L) as (b & J1 & JB & _).
  assert (JI : 0 <= INR jn <= 32). { split; [apply pos_INR|]. replace 32 with (INR 32) by (cbn; lra). apply le_INR. lia. }
  assert (CL' : Rabs (yof it O n i - fpos i c) <= 55/100 + e + (1/20 + H / 450000 + 32/1000)).
  { eapply Rle_trans; [exact CL|]. unfold err0, drift, e. destruct (mo_isMoving _ _ _); lra. }
  split; [exact CL'|]. pose proof (g_head _ _ _ _ _ _ _ _ _ L) as FR. destruct (live_sample _ _ _ _ _ _ _ _ _ L) as (x & Fx & Lx & Nx). specialize (Nx i Hi).
  destruct (fr_pos _ _ _ _ _ _ _ _ FR i _ _ Hi Fx Lx) as (r & _ & Br & Nr). apply le_IZR. rewrite abs_IZR. change (Rabs (fpos i c) <= 2000000).
  apply Rabs_le_inv in CL'. apply Rabs_le_inv in Nx. apply Rabs_le_inv in Br. apply Rabs_le_inv in Nr. unfold e, dlt, slack in *. apply Rabs_le. lra.
Qed.

(** A tick of a live controller. *)
Lemma tick_due c pre it its n o O m0 jn c' pre' it' its' n' o' O' m0' jn' i : lives c pre it its n o O m0 jn -> c_tick A M c = Ok c' -> lives c' pre' it' its' n' o' O' m0' jn' -> (i < 3)%nat ->
  fpos i c' = fpos i c \/ mo_isMoving A (c_getHead A c') i = true /\ due (yof it' O' n' i) (fpos i c) (fpos i c').
Proof.
  intros L E L' Hi. destruct (live_count _ _ _ _ _ _ _ _ _ i L Hi) as (_ & PZ).
  assert (TM : c_pos c' = c_pos c \/ exists c3, c_move A M c3 = Ok c' /\ c_pos c3 = c_pos c).
  { unfold c_tick in E. destruct (c_isRunning _); [|inversion E; subst; left; reflexivity].
    destruct (advance_moves A M _ _ _ E) as [P|(c3 & M1 & M2 & _)]; [left; rewrite P; destruct (st_isBeyond _ _ _); reflexivity|right; exists c3; split; [exact M1|]; rewrite M2; destruct (st_isBeyond _ _ _); reflexivity]. }
  destruct TM as [P|(c3 & M1 & M2)]; [left; unfold fpos; now rewrite P|].
  unfold c_move in M1. destruct (moveAxes_other A M _ _ _ _ _ M1) as ((F1 & F2 & F3 & F4 & _) & L3 & _).
  assert (HD : c_getHead A c3 = c_getHead A c') by (unfold c_getHead, item; now rewrite F1, F2). rewrite HD, <- F4 in M1.
  destruct (moveAxes_each A M (c_getHead A c') (p_s K (mo_prof (c_getHead A c')) (st_time (c_st c'))) axes c3 c') with (i := i) as (a & b & Q1 & Q2 & Q3 & Q4); [repeat constructor; cbn; intuition lia|exact M1|cbn; lia|].
  destruct (mo_isMoving A (c_getHead A c') i) eqn:EM.
  - right. split; [reflexivity|]. pose proof (g_head _ _ _ _ _ _ _ _ _ L') as FR. destruct (live_sample _ _ _ _ _ _ _ _ _ L') as (x & Fx & Lx & Nx).
    pose proof (lv_pos _ _ _ _ _ _ _ _ _ _ _ _ _ _ _ _ L') as LP'.
    assert (PA : nth i (c_pos a) 0%Z = nth i (c_pos c) 0%Z) by (rewrite Q1; now rewrite M2).
    pose proof (axis_due _ _ _ x a b i FR Hi Fx Lx EM ltac:(congruence) ltac:(rewrite PA; exact PZ) Q3 _ (Nx i Hi)) as DU. unfold fpos in *. now rewrite PA, <- Q4 in DU.
  - left. unfold c_moveAxis in Q3. rewrite EM in Q3. inversion Q3; subst. unfold fpos. rewrite Q4, Q1. now rewrite M2.
Qed.

(** What is asked of a motion. *)
Record calm (it : fitem) : Prop := {
  ca_rate : forall i t t', (i < 3)%nat -> 0 <= t <= t' -> t' <= it_T it -> t' - t <= G -> Rabs (ya it i t' - ya it i t) <= / 20;
  ca_first : forall i t, (i < 3)%nat -> 0 <= t <= G -> t <= it_T it -> Rabs (ya it i t - k i * path_pos (it_P it) i 0) <= / 100;
  ca_last : forall i t, (i < 3)%nat -> 0 <= t <= it_T it -> it_T it - t <= Q -> Rabs (k i * path_pos (it_P it) i (it_len it) - ya it i t) <= / 100 + H / 450000 }.

Lemma tick_near c pre it its n o O m0 jn : lives c pre it its n o O m0 jn -> Forall calm (it :: its) -> forall c', c_tick A M c = Ok c' ->
  c_isRunning c' = false /\ c_pos c' = c_pos c \/
  exists pre' it' its' n' o' O' m0' jn', lives c' pre' it' its' n' o' O' m0' jn' /\ Forall calm (it' :: its') /\
    last (map (fun it => it_P it) its') (it_P it') = last (map (fun it => it_P it) its) (it_P it) /\ forall i, (i < 3)%nat -> Rabs (yof it' O' n' i - yof it O n i) <= / 20.
Proof.
  intros L CA c' E. pose proof CA as CA0. apply Forall_cons_iff in CA as (C1 & C2). pose proof (g_head _ _ _ _ _ _ _ _ _ L) as FR.
  pose proof L as [LS LR LL LQ LC LO OG LN LT LP LCL LJN LD LF]. pose proof (g_gaps _ _ FR) as GG.
  pose proof (g_reads O n o ltac:(lra) LO ltac:(lia)) as RP. pose proof (reads_mono W O ltac:(lra) n) as RM.
  pose proof (reads_gap w o W O FW LO ltac:(lra) ltac:(lra) n ltac:(lia)) as RG1.
  pose proof (reads_near w o W O FW LO ltac:(lra) ltac:(lra) n ltac:(lia)) as RN0.
  pose proof (g_min _ _ (reads W O n) FR RP) as M0. pose proof (fr_T _ _ _ _ _ _ _ _ FR) as TT. apply Rabs_le_inv in TT. pose proof (fr_Tf _ _ _ _ _ _ _ _ FR) as TF.
  assert (GAP : reads W O (n + 1) - reads W O n <= G) by (unfold tick_gap in *; lra).
  destruct (tick_live X M k B H W Tmax w HK K0 HB HH FW RW RT _ _ _ _ _ _ _ _ _ L) as (c1 & E1 & CS). rewrite E in E1. inversion E1; subst c1. clear E1.
  destruct CS as [L'|[(it' & its' & o' & O' & -> & jn' & L')|(_ & S' & _)]].
  - right. do 8 eexists. split; [exact L'|]. split; [exact CA0|]. split; [reflexivity|]. intros i Hi.
    assert (RP' : 0 <= reads W O (n + 1)) by lra. pose proof (g_min _ _ _ FR RP') as M1.
    assert (MM : Rmin (reads W O n) (it_T it) <= Rmin (reads W O (n + 1)) (it_T it) /\ Rmin (reads W O (n + 1)) (it_T it) - Rmin (reads W O n) (it_T it) <= G).
    { unfold Rmin. destruct (Rle_dec (reads W O n) (it_T it)), (Rle_dec (reads W O (n + 1)) (it_T it)); lra. }
    unfold yof. apply (ca_rate _ C1); auto; lra.
  - right. do 8 eexists. split; [exact L'|]. split; [exact C2|]. split; [cbn [map]; symmetry; apply last_shift|]. intros i Hi.
    assert (FRS : fresh (mkST o o 0 w) w o) by (repeat split).
    pose proof (clock_reads X w o W O FW LO ltac:(lra) ltac:(lra) (mkST o o 0 w) (n + 1) FRS ltac:(lia)) as CR.
    assert (ES : st_next A (c_st c) = ticked A (n + 1) (mkST o o 0 w)). { rewrite LC. unfold ticked. replace (n + 1)%N with (N.succ n) by lia. now rewrite N.iter_succ. }
    assert (GT : fi_Tf it < reads W O (n + 1)).
    { destruct (Rle_lt_dec (reads W O (n + 1)) (fi_Tf it)) as [LE|GT]; [exfalso|exact GT].
      rewrite tick_unfold in E; [|exact LS|rewrite (fr_stop _ _ _ _ _ _ _ _ FR), ES; apply (inf_ltb _ _ CR)].
      rewrite advance_stay in E.
      - unfold c_move in E. destruct (moveAxes_other A M _ _ _ _ _ E) as ((_ & _ & F3 & _) & _). pose proof (lv_level _ _ _ _ _ _ _ _ _ _ _ _ _ _ _ _ L') as LL'. rewrite F3 in LL'.
        change (c_level c = N.of_nat (S (length its'))) in LL'. rewrite LL in LL'. cbn [length] in LL'. lia.
      - rewrite ES. rewrite <- (Rlt_bool_false _ _ LE). refine (fin_ltb 24 128 _ _ _ _ _ _); apply fin_float32; [apply (fr_dur _ _ _ _ _ _ _ _ FR)|exact CR]. }
    destruct LJN as (b & _ & _ & JN & _). specialize (JN i Hi). rewrite Rmult_minus_distr_l in JN.
    apply Forall_cons_iff in C2 as (C3 & _). pose proof (g_head _ _ _ _ _ _ _ _ _ L') as FR'.
    pose proof (lv_O _ _ _ _ _ _ _ _ _ _ _ _ _ _ _ _ L') as OG'. pose proof (lv_o _ _ _ _ _ _ _ _ _ _ _ _ _ _ _ _ L') as LO'.
    assert (RO0 : reads W O' 0 = O').
    { unfold reads. change (IZR (Z.of_N 0)) with 0. rewrite !rnd_0, Rmult_0_l, rnd_0, Rplus_0_l. apply rnd_id. apply (fin_format 24 128 o'). apply fin_float32. exact LO'. }
    pose proof (g_min _ _ O' FR' ltac:(lra)) as M1. pose proof (Rmin_l O' (it_T it')) as M2.
    pose proof (ca_first _ C3 i (Rmin O' (it_T it')) Hi ltac:(lra) ltac:(lra)) as Y1.
    assert (QQ : it_T it - Rmin (reads W O n) (it_T it) <= Q).
    { unfold Rmin. destruct (Rle_dec (reads W O n) (it_T it)); unfold tick_gap, last_gap in *; [|lra]. lra. }
    pose proof (ca_last _ C1 i (Rmin (reads W O n) (it_T it)) Hi M0 QQ) as Y2.
    unfold yof. rewrite RO0. apply Rabs_le_inv in Y1. apply Rabs_le_inv in Y2. apply Rabs_le_inv in JN.
    assert (HS : H / 450000 <= / 250) by (unfold e, dlt in SMALL; pose proof g_slack; lra). apply Rabs_le. lra.
  - left. split; [unfold c_isRunning; now rewrite S'|].
    assert (FRS : fresh (mkST o o 0 w) w o) by (repeat split).
    pose proof (clock_reads X w o W O FW LO ltac:(lra) ltac:(lra) (mkST o o 0 w) (n + 1) FRS ltac:(lia)) as CR.
    assert (ES : st_next A (c_st c) = ticked A (n + 1) (mkST o o 0 w)). { rewrite LC. unfold ticked. replace (n + 1)%N with (N.succ n) by lia. now rewrite N.iter_succ. }
    rewrite tick_unfold in E; [|exact LS|rewrite (fr_stop _ _ _ _ _ _ _ _ FR), ES; apply (inf_ltb _ _ CR)].
    destruct (advance_moves A M _ _ _ E) as [P|(c3 & M1 & _ & M3)]; [exact P|]. exfalso. unfold c_move in M1. destruct (moveAxes_other A M _ _ _ _ _ M1) as ((_ & _ & _ & _ & F5 & _) & _).
    rewrite M3 in F5. change (c_state c' = c_state c) in F5. rewrite S', LS in F5. discriminate.
Qed.

Lemma near_apart c pre it its n o O m0 jn c1 pre1 it1 its1 n1 o1 O1 m1 jn1 c2 its2 c3 : lives c pre it its n o O m0 jn -> c_tick A M c = Ok c1 -> lives c1 pre1 it1 its1 n1 o1 O1 m1 jn1 ->
  (forall i, (i < 3)%nat -> Rabs (yof it1 O1 n1 i - yof it O n i) <= / 20) -> lives c2 pre1 it1 its2 n1 o1 O1 m1 jn1 -> Forall calm (it1 :: its2) -> c_pos c2 = c_pos c1 -> c_tick A M c2 = Ok c3 ->
  forall i, (i < 3)%nat -> nth i (c_pos c2) 0%Z = nth i (c_pos c) 0%Z \/ nth i (c_pos c3) 0%Z = nth i (c_pos c2) 0%Z.
Proof.
  intros L E1 L1 N1 L2 CA2 EP E3 i Hi. rewrite EP.
  destruct (tick_near _ _ _ _ _ _ _ _ _ L2 CA2 c3 E3) as [(_ & ->)|(p2 & it2 & is2 & n2 & o2 & O2 & m2 & j2 & L3 & _ & _ & N2)]; [right; now rewrite EP|].
  specialize (N1 i Hi). specialize (N2 i Hi). destruct (live_count _ _ _ _ _ _ _ _ _ i L Hi) as (CL & _).
  assert (HS : 0 <= H / 450000 <= / 250) by (unfold e, dlt in SMALL; pose proof g_slack; lra).
  destruct (tick_due _ _ _ _ _ _ _ _ _ _ _ _ _ _ _ _ _ _ i L E1 L1 Hi) as [P|(_ & D1)]; [left; now apply eq_IZR|].
  pose proof (tick_due _ _ _ _ _ _ _ _ _ _ _ _ _ _ _ _ _ _ i L2 E3 L3 Hi) as D2. assert (EF : fpos i c2 = fpos i c1) by (unfold fpos; now rewrite EP). rewrite EF in D2. destruct D2 as [P|(_ & D2)]; [right; now apply eq_IZR|].
  apply Rabs_le_inv in N1. apply Rabs_le_inv in N2. apply Rabs_le_inv in CL.
  destruct D1 as [P|D1]; [left; now apply eq_IZR|]. destruct D2 as [P|D2]; [right; now apply eq_IZR|]. exfalso. destruct D1 as [(P1 & Q1)|(P1 & Q1)], D2 as [(P2 & Q2)|(P2 & Q2)]; lra.
Qed.
Lemma two_ticks c pre it its n o O m0 jn : lives c pre it its n o O m0 jn -> Forall calm (it :: its) -> forall c1 c2, c_tick A M c = Ok c1 -> c_tick A M c1 = Ok c2 ->
  forall i, (i < 3)%nat -> nth i (c_pos c1) 0%Z = nth i (c_pos c) 0%Z \/ nth i (c_pos c2) 0%Z = nth i (c_pos c1) 0%Z.
Proof.
  intros L CA c1 c2 E1 E2 i Hi. destruct (tick_near _ _ _ _ _ _ _ _ _ L CA c1 E1) as [(_ & ->)|(p1 & it1 & is1 & n1 & o1 & O1 & m1 & j1 & L1 & CA1 & _ & N1)]; [left; reflexivity|].
  exact (near_apart _ _ _ _ _ _ _ _ _ _ _ _ _ _ _ _ _ _ c1 is1 c2 L E1 L1 N1 L1 CA1 eq_refl E2 i Hi).
Qed.

Lemma stopped_still (j : nat) : forall c c', c_isRunning c = false -> ticks_run A M j c = Ok c' -> c_isRunning c' = false.
Proof.
  induction j as [|j IH]; intros c c' S E; cbn [ticks_run] in E; [inversion E; subst; auto|].
  destruct (c_tick A M c) as [c1|] eqn:E1; [|discriminate]. cbn [rbind] in E. destruct (tick_stopped A M _ _ S E1) as (_ & S1). exact (IH _ _ S1 E).
Qed.
Lemma live_apart (j : nat) : forall c pre it its n o O m0 jn, lives c pre it its n o O m0 jn -> Forall calm (it :: its) ->
  forall c1 c2 c3, ticks_run A M j c = Ok c1 -> c_tick A M c1 = Ok c2 -> c_tick A M c2 = Ok c3 ->
  forall i, (i < 3)%nat -> nth i (c_pos c2) 0%Z = nth i (c_pos c1) 0%Z \/ nth i (c_pos c3) 0%Z = nth i (c_pos c2) 0%Z.
Proof.
  induction j as [|j IH]; intros c pre it its n o O m0 jn L CA c1 c2 c3 E1 E2 E3 i Hi; cbn [ticks_run] in E1.
  - inversion E1; subst. exact (two_ticks _ _ _ _ _ _ _ _ _ L CA c2 c3 E2 E3 i Hi).
  - destruct (c_tick A M c) as [c0|] eqn:E0; [|discriminate]. cbn [rbind] in E1.
    destruct (tick_near _ _ _ _ _ _ _ _ _ L CA c0 E0) as [(S0 & _)|(p1 & it1 & is1 & n1 & o1 & O1 & m1 & j1 & L1 & CA1 & _)].
    + left. pose proof (stopped_still j _ _ S0 E1) as S1. destruct (tick_stopped A M _ _ S1 E2) as (-> & _). reflexivity.
    + exact (IH _ _ _ _ _ _ _ _ _ L1 CA1 c1 c2 c3 E1 E2 E3 i Hi).
Qed.
End Gap.

(** Slow motions are calm. *)
Section Slow.
Variables (X : sf_funs) (M : machine sf) (fo : sf) (u : funit).
Notation A := (sf_arith X).
Notation G := (tick_gap (fu_W u) (fu_T u)).
Notation Q := (last_gap (fu_W u) (fu_T u)).
Hypothesis UO : funit_ok X M u.
Lemma gaps0 : 0 < G /\ G <= Q \/ fu_T u <= 0.
Proof. unfold tick_gap, last_gap. pose proof (fu_tick _ _ _ UO). destruct (Rle_dec (fu_T u) 0); [right; lra|left; lra]. Qed.

Lemma slow_calm q c it : trig_ok X -> move_ok X M fo u q -> slow u q -> carried X M fo u (fq_m q) (fq_P q) (fq_l q) c -> 0 <= c <= over ->
  executes u (fi_leg it) (fq_P q) (fq_l q) -> calm (fu_k u) (fu_H u) (fu_W u) (fu_T u) it.
Proof.
  intros TR MO SL CD C0 (EP & (T0 & T1) & len & v & acc & PS & LL).
  assert (GQ' : 0 < G <= Q) by (destruct gaps0; lra).
  destruct (cd_lin _ _ _ _ _ _ _ _ CD) as (_ & LIN). set (l := fq_l q) in *. set (P := fq_P q) in *.
  assert (POS : 0 < fl_a l /\ 0 < fl_d l /\ 0 < fl_vm l).
  { pose proof (cd_plan _ _ _ _ _ _ _ _ CD) as SD. fold l in SD. destruct SD. unfold usual in *. repeat split; lra. }
  assert (KP : forall i, (i < 3)%nat -> 0 < fu_k u i) by (intros i Hi; apply (fu_steps _ _ _ UO i Hi)).
  assert (INC : forall x y b, 0 <= x <= y -> y <= it_T it -> (forall t, x < t < y -> v t <= b) -> 0 <= it_s it y - it_s it x <= b * (y - x)).
  { intros x y b H1 H2 HB'. assert (0 * (y - x) <= it_s it y - it_s it x <= b * (y - x)); [|lra]. apply (lip (it_s it) v b 0 x y); try lra.
    - intros t Ht. apply (ps_speed _ _ _ _ _ _ _ _ _ _ _ _ PS). lra.
    - intros t Ht. apply (ps_scont _ _ _ _ _ _ _ _ _ _ _ _ PS). lra.
    - intros t Ht. split; [apply (ps_vbound _ _ _ _ _ _ _ _ _ _ _ _ PS); lra|apply HB'; lra]. }
  assert (YL : forall i x y z, (i < 3)%nat -> Rabs (x - y) <= z -> Rabs (fu_k u i * path_pos P i x - fu_k u i * path_pos P i y) <= fu_k u i * (c * z)).
  { intros i x y z Hi Hz. rewrite <- Rmult_minus_distr_l, Rabs_mult, (Rabs_pos_eq (fu_k u i)) by (apply Rlt_le, KP; auto). apply Rmult_le_compat_l; [apply Rlt_le, KP; auto|].
    eapply Rle_trans; [apply LIN; auto|]. apply Rmult_le_compat_l; lra. }
  assert (OV : forall i z b, (i < 3)%nat -> 0 <= z -> fu_k u i * (over * z) <= b -> fu_k u i * (c * z) <= b).
  { intros i z b Hi Hz Hb. eapply Rle_trans; [|exact Hb]. apply Rmult_le_compat_l; [apply Rlt_le, KP; auto|]. apply Rmult_le_compat_r; lra. }
  destruct (ps_start _ _ _ _ _ _ _ _ _ _ _ _ PS) as (S0 & V0). destruct (ps_end _ _ _ _ _ _ _ _ _ _ _ _ PS) as (S1 & V1).
  constructor; unfold yat; rewrite EP; fold P.
  - intros i t t' Hi Ht Ht' HG. destruct (SL i Hi) as (R1 & _). eapply Rle_trans; [apply (YL i _ _ (fl_vm l * G) Hi)|].
    + destruct (INC t t' (fl_vm l) Ht Ht') as (I1 & I2). { intros x Hx. apply (ps_vbound _ _ _ _ _ _ _ _ _ _ _ _ PS). lra. }
      rewrite Rabs_pos_eq by lra. eapply Rle_trans; [exact I2|]. apply Rmult_le_compat_l; lra.
    + apply OV; auto. apply Rmult_le_pos; lra.
  - intros i t Hi Ht HT. destruct (SL i Hi) as (_ & R2 & _). eapply Rle_trans; [apply (YL i _ _ (fl_a l * (Q * Q)) Hi)|].
    + destruct (INC 0 t (fl_a l * t) ltac:(lra) HT) as (I1 & I2).
      { intros x Hx. pose proof (ps_accel _ _ _ _ _ _ _ _ _ _ _ _ PS 0 x ltac:(lra) ltac:(lra)) as AC. rewrite V0 in AC. assert (0 <= fl_a l * (t - x)) by (apply Rmult_le_pos; lra). lra. }
      rewrite S0 in I1, I2. rewrite Rminus_0_r in *. rewrite Rabs_pos_eq by lra. eapply Rle_trans; [exact I2|]. rewrite Rmult_assoc. apply Rmult_le_compat_l; [lra|]. apply Rmult_le_compat; lra.
    + apply OV; auto. apply Rmult_le_pos; [lra|]. apply Rmult_le_pos; lra.
  - intros i t Hi Ht HT. destruct (SL i Hi) as (_ & _ & R3). eapply Rle_trans; [apply (YL i _ _ (fl_d l * (Q * Q) + pa_len P / 450000) Hi)|].
    + destruct (INC t (it_T it) (fl_d l * (it_T it - t)) ltac:(lra) ltac:(lra)) as (I1 & I2).
      { intros x Hx. pose proof (ps_accel _ _ _ _ _ _ _ _ _ _ _ _ PS x (it_T it) ltac:(lra) ltac:(lra)) as AC. rewrite V1 in AC. assert (0 <= fl_d l * (x - t)) by (apply Rmult_le_pos; lra). lra. }
      rewrite S1 in I1, I2. assert (I3 : fl_d l * (it_T it - t) * (it_T it - t) <= fl_d l * (Q * Q)). { rewrite Rmult_assoc. apply Rmult_le_compat_l; [lra|]. apply Rmult_le_compat; lra. }
      fold P in LL. apply Rabs_le_inv in LL. apply Rabs_le. lra.
    + rewrite !Rmult_plus_distr_l. pose proof (OV i (fl_d l * (Q * Q)) (/ 100) Hi ltac:(apply Rmult_le_pos; [lra|apply Rmult_le_pos; lra]) R3). pose proof (cd_steps _ _ _ _ _ _ _ _ CD i Hi) as CS. fold P in CS. lra.
Qed.

Lemma move_factor q : trig_ok X -> move_ok X M fo u q -> exists c, carried X M fo u (fq_m q) (fq_P q) (fq_l q) c /\ 0 <= c <= over.
Proof.
  intros TR [S|(arc & S)].
  - exists 1. split; [now apply straight_carried|unfold over; lra].
  - exists over. split; [now apply curved_carried with (arc := arc)|unfold over; lra].
Qed.

Lemma apart_lemma w : trig_ok X -> float32 w (fu_W u) -> fine_steps u ->
  forall c x0 qs, idle X c w fo -> Forall (move_ok X M fo u) qs -> Forall (slow u) qs -> qs <> [] -> (length qs <= 32)%nat -> joined (fu_k u) x0 (map fq_P qs) ->
  (forall i, (i < 3)%nat -> Rabs (fu_k u i * x0 i - counted c i) <= 54/100) ->
  exists c0, c_run A M c (map (fun q => OAppend (fq_m q)) qs ++ [OStart]) = Ok (c0, []) /\ steps_apart X M c0.
Proof.
  intros TR FW FS c x0 qs ID MO SL NE HL JN CL.
  assert (FINE : forall q, move_ok X M fo u q -> exists c, carried X M fo u (fq_m q) (fq_P q) (fq_l q) c). { intros q Hq. destruct (move_factor q TR Hq) as (cc & CD & _). eauto. }
  destruct (appends_floaded X M fo u (move_ok X M fo u) FINE w qs c [] (idle_floaded X M fo w c ID) MO HL) as (c1 & R1 & L1 & P1). cbn [app] in L1.
  destruct qs as [|q qs]; [congruence|]. cbn [map joined] in JN. destruct JN as (J1 & J2).
  destruct (start_live X M fo u UO (move_ok X M fo u) FINE w c1 q qs x0 L1 MO J1) as (it & its & FE & LV).
  { exists (length (map fq_P qs)). split; [rewrite map_length; cbn [length] in HL; lia|now apply joined_linked]. }
  { intros i Hi. unfold counted. rewrite P1. apply CL; auto. }
  exists (c_start A M c1). split. { rewrite (run_app X M _ [OStart] c c1 R1). reflexivity. }
  assert (CA : Forall (calm (fu_k u) (fu_H u) (fu_W u) (fu_T u)) (it :: its)).
  { clear - TR FE MO SL UO. revert MO SL. induction FE as [|a b la lb EX FE IH]; intros MO SL; constructor; inversion MO; inversion SL; subst; auto.
    destruct (move_factor b TR) as (cc & CD & C0); auto. eapply slow_calm; eauto. }
  destruct UO as [U1 (U2 & U2') U3 U4]. intros j a1 a2 a3 E1 E2 E3 i Hi.
  refine (live_apart X M (fu_k u) (fu_B u) (fu_H u) (fu_W u) (fu_T u) w _ _ U2 U2' FW U3 U4 _ j _ _ _ _ _ _ _ _ _ LV CA a1 a2 a3 E1 E2 E3 i Hi).
  - intros i' Hi'. apply U1; auto.
  - intros i' Hi'. apply Rlt_le, U1; auto.
  - unfold dlt. unfold fine_steps in FS. lra.
Qed.
End Slow.

(** *** An example: 5 mm along X and 3 mm back, at 10 mm/s. *)
Lemma slow_ok X q : q = ex_slow1 X \/ q = ex_slow2 X -> fq_ok X (cnc3axis (sf_arith X)) (nofZ (aF (sf_arith X)) 1) ex_small q.
Proof.
  assert (V : forall m e r, valid_binary 24 128 (S754_finite false m e) = true -> IZR (Z.pos m) * bpow radix2 e = r -> float32 (S754_finite false m e) r).
  { intros m e r H1 H2. apply f32; auto. rewrite Rmult_1_l. auto. }
  intros [-> | ->]; constructor; cbn [ex_slow1 ex_slow2 ex_small fq_P fq_l fq_m line line_path sm_type sm_arc0 sm_arc1 sm_length pa_len pa_start pa_delta pa_arc fl_a fl_d fl_j fl_vm fl_L fu_k fu_B fu_H fu_W fu_T sm_start sm_delta map]; auto;
    unfold tick_gap, last_gap; try (intros; lra); try (apply float64_lit; lia).
  1,5: intros [|[|[|i]]] Hi; [(apply float64_lit; cbn [nth]; lia)..|lia].
  1,4: intros [|[|[|i]]] Hi; [(cbn [nth]; split; [apply float64_lit; lia|split; [apply Rabs_le; lra|]]; ((left; reflexivity) || (right; unfold Rabs; destruct (Rcase_abs _); lra)))..|lia].
  2,4: intros [|[|[|i]]] Hi; cbn [nth]; [unfold Rabs; destruct (Rcase_abs _); lra ..|lia].
  all: remember (prof_setSpeed _ _ _ _ _) as p eqn:E; vm_compute in E; remember (t_length _) as l eqn:El; vm_compute in El.
  all: constructor; subst; try (split; reflexivity); unfold usual; try lra; cbn [p_aMax p_dMax p_jMax].
  all: try (apply f32; [reflexivity|]; cbv iota; change (bpow radix2 (-16)) with (/ 65536); change (bpow radix2 (-14)) with (/ 16384); change (bpow radix2 (-21)) with (/ 2097152); change (bpow radix2 (-22)) with (/ 4194304); lra).
  all: eexists; split; [|vm_compute; reflexivity]; apply V; [reflexivity|]; change (bpow radix2 (-20)) with (/ 1048576); lra.
Qed.
Lemma apart_example X : let A := sf_arith X in let M := cnc3axis A in let fo := nofZ (aF A) 1 in let c := c_init A 375 (tickWidth A) in
  let qs := [ex_slow1 X; ex_slow2 X] in let x0 := fun _ => 0 in
  idle X c (tickWidth A) fo /\ float32 (tickWidth A) (fu_W ex_small) /\ funit_ok X M ex_small /\ fine_steps ex_small /\ Forall (move_ok X M fo ex_small) qs /\ Forall (slow ex_small) qs /\
  joined (fu_k ex_small) x0 (map fq_P qs) /\ (forall i, (i < 3)%nat -> Rabs (fu_k ex_small i * x0 i - counted c i) <= 54/100).
Proof.
  cbv zeta. split. { constructor; reflexivity. }
  split. { apply clock_example. }
  split. { constructor; cbn [ex_small fu_k fu_B fu_H fu_W fu_T]; try lra. intros i Hi. split; [|lra].
    assert (E : nthF (sf_arith X) (m_stepsPerMm (cnc3axis (sf_arith X))) i = S754_finite false 13107200 (-16)) by (destruct i as [|[|[|i]]]; [reflexivity..|lia]).
    rewrite E. apply f32; [reflexivity|]. change (bpow radix2 (-16)) with (/ 65536). lra. }
  split. { unfold fine_steps, slack. cbn [ex_small fu_B fu_H]. lra. }
  split. { constructor; [|constructor; [|constructor]]; left; apply slow_ok; auto. }
  split. { constructor; [|constructor; [|constructor]]; intros i Hi; unfold over, tick_gap, last_gap; cbn [ex_small ex_slow1 ex_slow2 fq_l fl_a fl_d fl_vm fu_k fu_W fu_T]; repeat split; lra. }
  split. { cbn [map joined ex_slow1 ex_slow2 fq_P line_path ex_small fu_k]. unfold path_pos, linear_pos. cbn [line_path pa_arc pa_len pa_start pa_delta].
    repeat split; intros [|[|[|i]]] Hi; cbn [nth]; try lia; apply Rabs_le; lra. }
  intros [|[|[|i]]] Hi; try lia; cbn [ex_small fu_k]; unfold counted; cbn; apply Rabs_le; lra.
Qed.
