(** binary32: a queue of motions, tick by tick. *)
Require Import List Arith NArith ZArith Bool Reals Lra Lia ZifyBool ZifyNat ZifyN.
From Coq Require Import Floats.SpecFloat.
From Flocq Require Import Zaux Raux Defs Generic_fmt FLT Float_prop Round_NE Ulp Round_pred Relative Plus_error BinarySingleNaN.
From Verif Require Import Base BaseProofs EventModel StepModel StepSpec Num NumR NumSF MotionModel CtrlModel CtrlSpec CtrlRSpec CtrlProofs CtrlTrackProofs CtrlQueueProofs CtrlTimeProofs RingProofs.
From Verif Require Import ProfileSpec GeomSpec PlanProofs RunSpec FloatSpec FloatRunSpec FloatProofs FloatClockProofs FloatTrackProofs FloatErrProofs FloatMoveProofs.
Import ListNotations.
Open Scope R_scope.

(** A motion as planned: the leg, its duration as computed, length, limits, and how fast
    an axis may go along when the path is followed at speed one. *)
Record fitem := mkFI { fi_leg : leg; fi_Tf : R; fi_l : R; fi_a : R; fi_d : R; fi_vm : R; fi_c : R }.
Notation it_T it := (lg_T (fi_leg it)).
Notation it_P it := (lg_path (fi_leg it)).
Notation it_s it := (lg_s (fi_leg it)).
Notation it_len it := (pa_len (it_P it)).

Lemma inf_ltb x r : float32 x r -> SFltb (S754_infinity false) x = false.
Proof. intros (_ & H). destruct x as [[]|[]| |[] ? ?]; try discriminate; reflexivity. Qed.

Section Run.
Variables (X : sf_funs) (M : machine sf) (k : nat -> R) (B H W Tmax : R) (w : sf).
Notation A := (sf_arith X).
Notation K := (aF A).
Notation G := (tick_gap W Tmax).
Notation Q := (last_gap W Tmax).
Hypothesis HK : forall i, (i < 3)%nat -> float32 (nthF A (m_stepsPerMm M) i) (k i).
Hypothesis K0 : forall i, (i < 3)%nat -> 0 <= k i.
Hypothesis HB : 0 <= B <= 1048576.
Hypothesis HH : 0 <= H <= 262144.
Hypothesis FW : float32 w W.
Hypothesis RW : / 1048576 <= W <= / 4.
Hypothesis RT : Tmax <= 524288 /\ Tmax <= 4000000000 * W.

Record frun (o : motion sf) (it : fitem) : Prop := {
  fr_dur : float32 (p_duration (mo_prof o)) (fi_Tf it);
  fr_stop : p_tStop (mo_prof o) = ninf K;
  fr_Tf : 4 * G <= fi_Tf it <= Tmax;
  fr_T : Rabs (fi_Tf it - it_T it) <= / 131072 * it_T it;
  fr_plan : exists v acc, plan_spec 0 0 (fi_a it) (- fi_d it) (fi_vm it) 0 0 (it_T it) (fi_l it) (it_s it) v acc;
  fr_lim : 0 <= fi_a it /\ 0 <= fi_d it /\ 0 <= fi_vm it;
  fr_len : 0 < it_len it /\ Rabs (fi_l it - it_len it) <= it_len it / 450000;
  fr_sample : forall tf t, float32 tf t -> 0 <= t <= fi_Tf it ->
    exists x, float32 (p_s K (mo_prof o) tf) x /\ Rabs (x - it_s it (Rmin t (it_T it))) <= it_len it / 65000;
  fr_lin : 0 <= fi_c it /\ forall i x y, (i < 3)%nat -> Rabs (path_pos (it_P it) i x - path_pos (it_P it) i y) <= fi_c it * Rabs (x - y);
  fr_pos : forall i dist x, (i < 3)%nat -> float32 dist x -> Rabs x <= 11/10 * it_len it ->
    exists r, float32 (mo_position A o i dist) r /\ Rabs (r * k i) <= B /\ Rabs (r * k i - k i * path_pos (it_P it) i x) <= 2 * slack B;
  fr_fixed : forall i, (i < 3)%nat -> mo_isMoving A o i = false -> forall x y, path_pos (it_P it) i x = path_pos (it_P it) i y;
  fr_steps : forall i, (i < 3)%nat -> k i * (fi_c it * it_len it) <= H;
  fr_rate : forall i, (i < 3)%nat -> k i * (fi_c it * (fi_vm it * G)) <= 1;
  fr_creep : forall i, (i < 3)%nat -> k i * (fi_c it * (fi_a it * (Q * Q))) <= 1/20 /\ k i * (fi_c it * (fi_d it * (Q * Q))) <= 1/20 }.

(** The exact position of axis [i], in steps, [t] into the motion. *)
Definition yat (it : fitem) (i : nat) (t : R) : R := k i * path_pos (it_P it) i (it_s it t).

Section Item.
Variables (o : motion sf) (it : fitem).
Hypothesis FR : frun o it.

Lemma sl0 : 0 <= slack B.
Proof. unfold slack. lra. Qed.
Lemma GQ : 0 < W /\ W <= G /\ G <= Tmax / 4 /\ G <= Q /\ G <= 1.
Proof. pose proof (fr_Tf _ _ FR) as TF. unfold tick_gap, last_gap in *. lra. Qed.
Lemma Tpos : 0 < it_T it /\ it_T it <= 1.0001 * Tmax /\ it_T it <= 1.00001 * fi_Tf it /\ fi_Tf it <= 1.00001 * it_T it.
Proof.
  pose proof (fr_Tf _ _ FR) as TF. pose proof GQ. destruct (fr_plan _ _ FR) as (v & acc & PS).
  pose proof (ps_time _ _ _ _ _ _ _ _ _ _ _ _ PS) as T0. pose proof (fr_T _ _ FR) as TT. apply Rabs_le_inv in TT. lra.
Qed.
Lemma pos_lin i x y z : (i < 3)%nat -> Rabs (x - y) <= z -> Rabs (k i * path_pos (it_P it) i x - k i * path_pos (it_P it) i y) <= k i * (fi_c it * z).
Proof.
  intros Hi Hz. destruct (fr_lin _ _ FR) as (C0 & L). rewrite <- Rmult_minus_distr_l, Rabs_mult, (Rabs_pos_eq (k i)) by auto. apply Rmult_le_compat_l; auto.
  eapply Rle_trans; [apply L; auto|]. apply Rmult_le_compat_l; auto.
Qed.
Lemma pos_fixed i x y : (i < 3)%nat -> mo_isMoving A o i = false -> path_pos (it_P it) i x = path_pos (it_P it) i y.
Proof. intros Hi E. now apply (fr_fixed _ _ FR). Qed.

Lemma inc x y b : 0 <= x <= y -> y <= it_T it ->
  (forall v acc t, plan_spec 0 0 (fi_a it) (- fi_d it) (fi_vm it) 0 0 (it_T it) (fi_l it) (it_s it) v acc -> x < t < y -> v t <= b) ->
  0 <= it_s it y - it_s it x <= b * (y - x).
Proof.
  intros H1 H2 HB'. destruct (fr_plan _ _ FR) as (v & acc & PS). pose proof (lip (it_s it) v b 0 x y) as L.
  assert (0 * (y - x) <= it_s it y - it_s it x <= b * (y - x)); [|lra]. apply L; try lra.
  - intros t Ht. apply (ps_speed _ _ _ _ _ _ _ _ _ _ _ _ PS). lra.
  - intros t Ht. apply (ps_scont _ _ _ _ _ _ _ _ _ _ _ _ PS). lra.
  - intros t Ht. split; [apply (ps_vbound _ _ _ _ _ _ _ _ _ _ _ _ PS); lra|apply (HB' v acc); auto; lra].
Qed.
Lemma s_ends : it_s it 0 = 0 /\ it_s it (it_T it) = fi_l it.
Proof. destruct (fr_plan _ _ FR) as (v & acc & PS). split; apply PS. Qed.
Lemma s_lip x y : 0 <= x <= y -> y <= it_T it -> 0 <= it_s it y - it_s it x <= fi_vm it * (y - x).
Proof. intros H1 H2. apply inc; auto. intros v acc t PS Ht. apply (ps_vbound _ _ _ _ _ _ _ _ _ _ _ _ PS). lra. Qed.
Lemma s_start t : 0 <= t <= it_T it -> 0 <= it_s it t <= fi_a it * (t * t).
Proof.
  intros Ht. destruct s_ends as (E0 & _). destruct (fr_lim _ _ FR) as (A0 & _). assert (0 <= it_s it t - it_s it 0 <= fi_a it * t * (t - 0)); [|rewrite E0 in *; lra].
  apply inc; try lra. intros v acc x PS Hx. pose proof (ps_accel _ _ _ _ _ _ _ _ _ _ _ _ PS 0 x ltac:(lra) ltac:(lra)) as AC.
  destruct (ps_start _ _ _ _ _ _ _ _ _ _ _ _ PS) as (_ & V0). rewrite V0 in AC. assert (0 <= fi_a it * (t - x)) by (apply Rmult_le_pos; lra). lra.
Qed.
Lemma s_stop t : 0 <= t <= it_T it -> 0 <= fi_l it - it_s it t <= fi_d it * ((it_T it - t) * (it_T it - t)).
Proof.
  intros Ht. destruct s_ends as (_ & <-). destruct (fr_lim _ _ FR) as (_ & D0 & _).
  assert (0 <= it_s it (it_T it) - it_s it t <= fi_d it * (it_T it - t) * (it_T it - t)); [|lra].
  apply inc; try lra. intros v acc x PS Hx. pose proof (ps_accel _ _ _ _ _ _ _ _ _ _ _ _ PS x (it_T it) ltac:(lra) ltac:(lra)) as AC.
  destruct (ps_end _ _ _ _ _ _ _ _ _ _ _ _ PS) as (_ & V0). rewrite V0 in AC. assert (0 <= fi_d it * (x - t)) by (apply Rmult_le_pos; lra). lra.
Qed.
Lemma sq_le a b : 0 <= a <= b -> a * a <= b * b.
Proof. intros. apply Rmult_le_compat; lra. Qed.
Lemma rmin_in t : 0 <= t -> 0 <= Rmin t (it_T it) <= it_T it.
Proof. intro. pose proof Tpos. split; [apply Rmin_glb; lra|apply Rmin_r]. Qed.
Lemma y_step i t t' : (i < 3)%nat -> 0 <= t <= t' -> t' - t <= G -> Rabs (yat it i (Rmin t' (it_T it)) - yat it i (Rmin t (it_T it))) <= 1.
Proof.
  intros Hi Ht HG. pose proof (rmin_in t ltac:(lra)). pose proof (rmin_in t' ltac:(lra)).
  assert (0 <= Rmin t' (it_T it) - Rmin t (it_T it) <= G). { revert H0 H1. unfold Rmin. destruct (Rle_dec t' (it_T it)), (Rle_dec t (it_T it)); lra. }
  pose proof (s_lip (Rmin t (it_T it)) (Rmin t' (it_T it)) ltac:(lra) ltac:(lra)) as L. unfold yat. eapply Rle_trans; [|apply (fr_rate _ _ FR i Hi)]. apply pos_lin; auto. rewrite Rabs_pos_eq by lra. destruct (fr_lim _ _ FR) as (_ & _ & V0).
  eapply Rle_trans; [apply L|]. apply Rmult_le_compat_l; lra.
Qed.
Lemma y_first i t : (i < 3)%nat -> 0 <= t <= G -> Rabs (yat it i (Rmin t (it_T it)) - k i * path_pos (it_P it) i 0) <= 1/20.
Proof.
  intros Hi Ht. pose proof (rmin_in t ltac:(lra)). pose proof (s_start _ H0) as L. unfold yat. eapply Rle_trans; [|exact (proj1 (fr_creep _ _ FR i Hi))]. apply pos_lin; auto. rewrite Rminus_0_r, Rabs_pos_eq by lra.
  destruct (fr_lim _ _ FR) as (A0 & _). eapply Rle_trans; [apply L|]. apply Rmult_le_compat_l; auto. apply sq_le. pose proof GQ. pose proof (Rmin_l t (it_T it)). lra.
Qed.
Lemma y_last i t : (i < 3)%nat -> 0 <= t -> it_T it - t <= Q -> Rabs (k i * path_pos (it_P it) i (it_len it) - yat it i (Rmin t (it_T it))) <= 1/20 + H / 450000.
Proof.
  intros Hi Ht HQ. pose proof (rmin_in t ltac:(lra)). pose proof (s_stop _ H0) as L. unfold yat.
  destruct (fr_creep _ _ FR i Hi) as (_ & C). destruct (fr_lim _ _ FR) as (_ & D0 & _). destruct (fr_len _ _ FR) as (LP & LL). pose proof (fr_steps _ _ FR i Hi).
  assert (Q1 : 0 <= it_T it - Rmin t (it_T it) <= Q). { split; [lra|]. unfold Rmin in *. pose proof GQ. destruct (Rle_dec t (it_T it)); lra. }
  pose proof (sq_le _ _ Q1) as SQ.
  assert (Rabs (it_len it - it_s it (Rmin t (it_T it))) <= fi_d it * (Q * Q) + it_len it / 450000).
  { apply Rabs_le_inv in LL. assert (fi_d it * ((it_T it - Rmin t (it_T it)) * (it_T it - Rmin t (it_T it))) <= fi_d it * (Q * Q)) by (apply Rmult_le_compat_l; auto).
    apply Rabs_le. lra. }
  eapply Rle_trans; [apply pos_lin; eauto|]. rewrite Rmult_plus_distr_l, Rmult_plus_distr_l. lra.
Qed.

(** One sample. *)
Definition dlt : R := 2 * slack B + H / 65000.
Definition err0 : R := 55/100 + slack B + dlt.
Lemma move_fin (c : ctrl sf) t (y0 E0 rho : nat -> R) : c_getHead A c = o -> length (c_pos c) = 3%nat -> float32 (st_time (c_st c)) t -> 0 <= t <= fi_Tf it ->
  (forall i, (i < 3)%nat -> mo_isMoving A o i = true -> Rabs (y0 i - fpos i c) <= E0 i /\ Rabs (yat it i (Rmin t (it_T it)) - y0 i) <= rho i /\ E0 i + rho i <= err0 + 1) ->
  exists c', c_move A M c = Ok c' /\ frame c c' /\ length (c_pos c') = 3%nat /\
    forall i, (i < 3)%nat -> if mo_isMoving A o i then Rabs (yat it i (Rmin t (it_T it)) - fpos i c') <= err0 else fpos i c' = fpos i c.
Proof.
  intros EO HL FT Ht HY. unfold c_move. rewrite EO. destruct (fr_sample _ _ FR _ _ FT Ht) as (x & Fx & Nx).
  pose proof (rmin_in t ltac:(lra)) as RM. pose proof sl0 as S0. destruct (fr_len _ _ FR) as (LP & LL).
  assert (SX : 0 <= it_s it (Rmin t (it_T it)) <= fi_l it).
  { destruct s_ends as (E1 & E2). pose proof (s_lip 0 (Rmin t (it_T it)) ltac:(lra) ltac:(lra)). pose proof (s_lip (Rmin t (it_T it)) (it_T it) ltac:(lra) ltac:(lra)). lra. }
  assert (RX : Rabs x <= 11/10 * it_len it). { apply Rabs_le_inv in Nx. apply Rabs_le_inv in LL. apply Rabs_le. lra. }
  destruct (moveAxes_fin X M k B HK HB o (p_s K (mo_prof o) (st_time (c_st c))) y0 (fun i => yat it i (Rmin t (it_T it))) (fun _ => dlt) E0 rho axes) with (c := c)
    as (c' & E1 & F1 & L1 & P1).
  - intros i Hi EM. destruct (HY i Hi EM) as (Y1 & Y2 & Y3). split; [|split; [exact Y2|split; [exact Y3|]]].
    + destruct (fr_pos _ _ FR i _ _ Hi Fx RX) as (r & Fr & Br & Nr). exists r. split; auto. split; auto.
      pose proof (pos_lin i x (it_s it (Rmin t (it_T it))) _ Hi Nx) as PL. pose proof (fr_steps _ _ FR i Hi).
      unfold yat, dlt. apply Rabs_le_inv in Nr. apply Rabs_le_inv in PL. apply Rabs_le. lra.
    + unfold dlt, slack. lra.
  - repeat constructor; cbn; intuition lia.
  - cbn. intros i [<-|[<-|[<-|[]]]]; lia.
  - auto.
  - intros i Hi EM. apply HY; auto. revert Hi. cbn. intros [<-|[<-|[<-|[]]]]; lia.
  - exists c'. split; auto. split; auto. split; auto. intros i Hi. specialize (P1 i Hi).
    destruct (in_dec Nat.eq_dec i axes) as [_|C]; [exact P1|]. exfalso; apply C. cbn. lia.
Qed.
End Item.

Lemma reads_pos O n : 0 <= O <= 1 -> float32 w W -> forall o, float32 o O -> (n < 2 ^ 32)%N -> 0 <= reads W O n.
Proof.
  intros HO _ o FO L. pose proof (reads_near w o W O FW FO ltac:(lra) HO n L) as E. apply Rabs_le_inv in E.
  assert (0 <= IZR (Z.of_N n) * W) by (apply Rmult_le_pos; [apply (IZR_le 0); lia|lra]). lra.
Qed.

(** How far an axis that did not move in the last motion may be off, on top of [err0]. *)
Definition drift (j : nat) : R := 1/20 + H / 450000 + INR j / 1000.
(** From [P] along [Ps]: at each join an axis that stands still in both motions goes on
    exactly where it was, except at [b] of them at most. *)
Definition meets (P P' : path) : Prop := forall i, (i < 3)%nat -> Rabs (k i * (path_pos P' i 0 - path_pos P i (pa_len P))) <= / 1000.
Fixpoint linked (P : path) (Ps : list path) (b : nat) : Prop :=
  match Ps with
  | [] => True
  | P' :: r => meets P P' /\ (flush P P' /\ linked P' r b \/ match b with O => False | S b' => linked P' r b' end)
  end.
Lemma joined_linked Ps : forall P, joined k (fun i => path_pos P i (pa_len P)) Ps -> linked P Ps (length Ps).
Proof. induction Ps as [|P' Ps IH]; intros P J; [exact I|]. cbn [joined linked length] in *. destruct J as (J1 & J2). split; [exact J1|]. right. apply IH. exact J2. Qed.
(** The controller is [n] ticks into motion [it]; the clock started it at [O], [m0]
    ticks after the start of the whole run. *)
Record live (c : ctrl sf) (pre : list leg) (it : fitem) (its : list fitem) (n : N) (o : sf) (O : R) (m0 : Z) (jn : nat) : Prop := {
  lv_state : c_state c = ms_running;
  lv_ring : ringok c;
  lv_level : c_level c = N.of_nat (S (length its));
  lv_queue : Forall2 frun (queue A c) (it :: its);
  lv_st : c_st c = ticked A n (mkST o o 0 w);
  lv_o : float32 o O;
  lv_O : 0 <= O <= G;
  lv_n : (n + 1 < 2 ^ 32)%N;
  lv_t : reads W O n <= fi_Tf it;
  lv_pos : length (c_pos c) = 3%nat;
  lv_close : forall i, (i < 3)%nat -> Rabs (yat it i (Rmin (reads W O n) (it_T it)) - fpos i c) <= err0 + if mo_isMoving A (c_getHead A c) i then 0 else drift jn;
  lv_joined : exists b, (1 <= jn)%nat /\ (jn + b <= 32)%nat /\ linked (it_P it) (map (fun it => it_P it) its) b;
  lv_led : Rabs (total pre + O - IZR m0 * W) <= IZR m0 * W / 60000 /\ 0 <= O <= IZR m0 * W;
  lv_first : 0 < reads W O n \/ pre = [] }.

Lemma live_head c pre it its n o O m0 jn : live c pre it its n o O m0 jn -> frun (c_getHead A c) it /\ Forall2 frun (queue A (c_pop c)) its /\ ringok (c_pop c).
Proof.
  intros L. destruct (ring_pop A c (lv_ring _ _ _ _ _ _ _ _ _ L)) as (E & R & _). { rewrite (lv_level _ _ _ _ _ _ _ _ _ L). lia. }
  pose proof (lv_queue _ _ _ _ _ _ _ _ _ L) as FQ. rewrite E in FQ. inversion FQ; subst. auto.
Qed.

(** Time: what the clock says of the run so far. *)
Lemma live_time c pre it its n o O m0 jn : live c pre it its n o O m0 jn ->
  Rabs (total pre + Rmin (reads W O n) (it_T it) - IZR (m0 + Z.of_N n) * W) <= IZR (m0 + Z.of_N n) * W / 32768.
Proof.
  intro L. destruct (live_head _ _ _ _ _ _ _ _ _ L) as (FR & _ & _). destruct (Tpos _ _ FR) as (T0 & T1 & T2 & T3).
  destruct (lv_led _ _ _ _ _ _ _ _ _ L) as (LD & O0 & O1). pose proof (lv_t _ _ _ _ _ _ _ _ _ L) as LT. pose proof (lv_O _ _ _ _ _ _ _ _ _ L) as OG.
  pose proof (GQ _ _ FR) as GG. pose proof (lv_n _ _ _ _ _ _ _ _ _ L) as LN.
  pose proof (reads_near w o W O FW (lv_o _ _ _ _ _ _ _ _ _ L) ltac:(lra) ltac:(lra) n ltac:(lia)) as RN.
  pose proof (fr_T _ _ FR) as TT. rewrite plus_IZR, Rmult_plus_distr_r.
  assert (0 <= IZR (Z.of_N n) * W) as Z0 by (apply Rmult_le_pos; [apply (IZR_le 0); lia|lra]).
  set (u := IZR m0 * W) in *. set (z := IZR (Z.of_N n) * W) in *. set (t := reads W O n) in *.
  apply Rabs_le_inv in LD. apply Rabs_le_inv in RN. apply Rabs_le_inv in TT.
  assert (t - t / 131072 <= Rmin t (it_T it) <= t). { unfold Rmin. destruct (Rle_dec t (it_T it)); lra. }
  apply Rabs_le. lra.
Qed.

Lemma tick_unfold (c : ctrl sf) : c_state c = ms_running -> st_isBeyond A (st_next A (c_st c)) (p_tStop (mo_prof (c_getHead A c))) = false ->
  c_tick A M c = c_advance A M (N.to_nat (c_level c)) (c_with_st (c_with_sig c (sg_next (c_sig c))) (st_next A (c_st c))).
Proof.
  intros S E. unfold c_tick. assert (c_isRunning (c_with_sig c (sg_next (c_sig c))) = true) as -> by (unfold c_isRunning; cbn [c_with_sig c_state]; now rewrite S).
  set (c2 := c_with_st (c_with_sig c (sg_next (c_sig c))) (st_next A (c_st (c_with_sig c (sg_next (c_sig c)))))).
  change (st_isBeyond A (c_st c2) (p_tStop (mo_prof (c_getHead A c2)))) with (st_isBeyond A (st_next A (c_st c)) (p_tStop (mo_prof (c_getHead A c)))). rewrite E. reflexivity.
Qed.
(** One iteration of the inner loop. *)
Lemma advance_stay f (c : ctrl sf) : st_isBeyond A (c_st c) (p_duration (mo_prof (c_getHead A c))) = false -> c_advance A M f c = c_move A M c.
Proof. intro E. destruct f; cbn [c_advance]; now rewrite E. Qed.
Definition next_st (c : ctrl sf) : stime sf :=
  let off := nsub K (st_time (c_st c)) (p_duration (mo_prof (c_getHead A c))) in mkST off off 0 (st_width (c_st c)).
Lemma advance_pop f (c : ctrl sf) : st_isBeyond A (c_st c) (p_duration (mo_prof (c_getHead A c))) = true -> (1 < c_level c)%N ->
  c_advance A M (S f) c = c_advance A M f (c_emit (c_with_st (c_pop c) (next_st c)) [motionCompleted]).
Proof. intros E LV. cbn [c_advance]. rewrite E. destruct (N.ltb_spec 1 (c_level c)); [|lia]. reflexivity. Qed.
Lemma advance_stop f (c : ctrl sf) : st_isBeyond A (c_st c) (p_duration (mo_prof (c_getHead A c))) = true -> c_level c = 1%N ->
  exists c', c_advance A M f c = Ok c' /\ c_state c' = ms_stopped /\ c_level c' = 0%N /\ c_pos c' = c_pos c.
Proof. intros E LV. destruct f; cbn [c_advance]; rewrite E, LV; cbn [N.ltb N.compare Pos.compare Pos.compare_cont]; eexists; (split; [reflexivity|]); cbn [c_emit c_with_state c_with_st c_pop c_with_queue c_state c_level c_pos]; rewrite LV; auto. Qed.

Lemma tick_live c pre it its n o O m0 jn : live c pre it its n o O m0 jn -> exists c', c_tick A M c = Ok c' /\
  (live c' pre it its (n + 1) o O m0 jn \/
   (exists it' its' o' O', its = it' :: its' /\ exists jn', live c' (pre ++ [fi_leg it]) it' its' 0 o' O' (m0 + Z.of_N n + 1) jn') \/
   (its = [] /\ c_state c' = ms_stopped /\ c_level c' = 0%N /\ length (c_pos c') = 3%nat /\
    (forall i, (i < 3)%nat -> Rabs (k i * path_pos (it_P it) i (it_len it) - fpos i c') <= err0 + drift jn) /\
    Rabs (total pre + it_T it - IZR (m0 + Z.of_N n + 1) * W) <= IZR (m0 + Z.of_N n + 1) * W / 32768 + G)).
Proof.
  intro L. destruct (live_head _ _ _ _ _ _ _ _ _ L) as (FR & FQ & RG). destruct (Tpos _ _ FR) as (T0 & T1 & T2 & T3).
  pose proof (live_time _ _ _ _ _ _ _ _ _ L) as LTM.
  pose proof L as [LS LR LL LQ LC LO OG LN LT LP LCL LJN (LD & O0 & O1) LF]. pose proof (GQ _ _ FR) as GG. pose proof (fr_Tf _ _ FR) as TF. pose proof sl0 as SL.
  assert (OO : 0 <= O <= 1) by lra.
  pose proof (reads_pos O n OO FW o LO ltac:(lia)) as RP. pose proof (reads_mono W O ltac:(lra) n) as RM.
  pose proof (reads_gap w o W O FW LO ltac:(lra) OO n ltac:(lia)) as RG1.
  pose proof (reads_near w o W O FW LO ltac:(lra) OO n ltac:(lia)) as RN0.
  pose proof (reads_near w o W O FW LO ltac:(lra) OO (n + 1) ltac:(lia)) as RN.
  assert (FRS : fresh (mkST o o 0 w) w o) by (repeat split).
  pose proof (clock_reads X w o W O FW LO ltac:(lra) OO (mkST o o 0 w) (n + 1) FRS ltac:(lia)) as CR.
  assert (ES : st_next A (c_st c) = ticked A (n + 1) (mkST o o 0 w)). { rewrite LC. unfold ticked. replace (n + 1)%N with (N.succ n) by lia. now rewrite N.iter_succ. }
  set (t := reads W O n) in *. set (t' := reads W O (n + 1)) in *. set (st1 := ticked A (n + 1) (mkST o o 0 w)) in *.
  assert (GAP : t' - t <= G) by (unfold tick_gap in *; lra).
  rewrite tick_unfold; auto. 2:{ rewrite (fr_stop _ _ FR), ES. apply (inf_ltb _ _ CR). }
  rewrite ES. set (c2 := c_with_st (c_with_sig c (sg_next (c_sig c))) st1).
  assert (BY : st_isBeyond A (c_st c2) (p_duration (mo_prof (c_getHead A c2))) = Rlt_bool (fi_Tf it) t').
  { refine (fin_ltb 24 128 _ _ _ _ _ _); apply fin_float32; [apply (fr_dur _ _ FR)|exact CR]. }
  assert (Z1 : IZR (Z.of_N (n + 1)) = IZR (Z.of_N n) + 1) by (rewrite N2Z.inj_add, plus_IZR; reflexivity).
  assert (ZP : 0 <= IZR (Z.of_N n) * W) by (apply Rmult_le_pos; [apply (IZR_le 0); lia|lra]).
  destruct (Rle_lt_dec t' (fi_Tf it)) as [LE|GT].
  - (* still in the same motion *)
    rewrite (Rlt_bool_false _ _ LE) in BY. rewrite advance_stay by exact BY.
    destruct (move_fin _ _ FR c2 t' (fun i => yat it i (Rmin t (it_T it))) (fun _ => err0) (fun _ => 1)) as (c' & E1 & (F1 & F2 & F3 & F4 & F5 & F6 & F7 & F8) & L1 & P1);
      [reflexivity|exact LP|exact CR|lra| |].
    { intros i Hi EM. split; [|split; [apply (y_step _ _ FR); auto; lra|lra]]. specialize (LCL i Hi). rewrite EM, Rplus_0_r in LCL. exact LCL. }
    exists c'. split; [exact E1|]. left. cbn [c2 c_with_st c_with_sig c_items c_head c_level c_st c_state c_events c_fo c_levelMax] in F1, F2, F3, F4, F5, F6, F7, F8.
    assert (HD : c_getHead A c' = c_getHead A c) by (unfold c_getHead, item; now rewrite F1, F2).
    constructor; auto.
    + congruence.
    + unfold ringok in *. now rewrite F1, F2, F3.
    + congruence.
    + unfold queue. now rewrite F1, F2, F3.
    + (* the index does not wrap *)
      rewrite Z1 in RN. apply Rabs_le_inv in RN. assert (IZR (Z.of_N n) < 4200000000); [|apply lt_IZR in H0; lia].
      apply (Rmult_lt_reg_r W); [lra|]. lra.
    + intros i Hi. rewrite HD. specialize (P1 i Hi). specialize (LCL i Hi). destruct (mo_isMoving A (c_getHead A c) i) eqn:EM.
      * rewrite Rplus_0_r. exact P1.
      * rewrite P1. change (fpos i c2) with (fpos i c). unfold yat in *. rewrite (pos_fixed _ _ FR i _ (it_s it (Rmin t (it_T it))) Hi EM). exact LCL.
    + destruct LF as [LF|LF]; [left; fold t'; lra|right; exact LF].
  - (* past its end *)
    rewrite (Rlt_bool_true _ _ GT) in BY.
    assert (END : forall i, (i < 3)%nat -> Rabs (k i * path_pos (it_P it) i (it_len it) - fpos i c) <= err0 + if mo_isMoving A (c_getHead A c) i then drift 0 else drift jn).
    { intros i Hi. specialize (LCL i Hi). unfold drift in *. assert (0 <= INR jn) by apply pos_INR. change (INR 0) with 0. destruct (mo_isMoving A (c_getHead A c) i) eqn:EM.
      - assert (it_T it - t <= Q). { pose proof (fr_T _ _ FR) as TT. apply Rabs_le_inv in TT. unfold tick_gap, last_gap in *. lra. }
        pose proof (y_last _ _ FR i t Hi ltac:(lra) ltac:(lra)) as YL. apply Rabs_le_inv in YL. apply Rabs_le_inv in LCL. apply Rabs_le. lra.
      - unfold yat in LCL. rewrite (pos_fixed _ _ FR i _ (it_len it) Hi EM) in LCL. exact LCL. }
    pose proof (fr_T _ _ FR) as TT. apply Rabs_le_inv in TT. apply Rabs_le_inv in LD. apply Rabs_le_inv in RN. apply Rabs_le_inv in RN0. rewrite Z1, Rmult_plus_distr_r, Rmult_1_l in RN.
    destruct its as [|it' its'].
    + (* the last one *)
      destruct (advance_stop (N.to_nat (c_level c)) c2 BY) as (c' & E1 & E2 & E3 & E4). { cbn [c2 c_with_st c_with_sig c_level]. rewrite LL. reflexivity. }
      exists c'. split; [exact E1|]. right. right. split; auto. split; auto. split; auto. split. { rewrite E4. exact LP. } split.
      * intros i Hi. unfold fpos. rewrite E4. eapply Rle_trans; [exact (END i Hi)|]. unfold drift. assert (0 <= INR jn) by apply pos_INR. change (INR 0) with 0. destruct (mo_isMoving _ _ _); lra.
      * rewrite !plus_IZR, !Rmult_plus_distr_r, Rmult_1_l. set (z := IZR (Z.of_N n) * W) in *. set (u := IZR m0 * W) in *. apply Rabs_le. lra.
    + (* on to the next one *)
      assert (LV : c_level c2 = N.of_nat (S (S (length its')))) by exact LL.
      change (N.to_nat (c_level c)) with (N.to_nat (c_level c2)). rewrite LV, Nat2N.id. rewrite advance_pop by (auto; lia).
      set (off := nsub K (st_time st1) (p_duration (mo_prof (c_getHead A c)))).
      assert (LT' : t' - t <= W + Tmax / 1600000) by (unfold tick_gap in GG; lra).
      pose proof (rnd_err (t' - fi_Tf it)) as RE. rewrite (Rabs_pos_eq (t' - fi_Tf it)) in RE by lra. apply Rabs_le_inv in RE.
      assert (FO' : float32 off (rnd (t' - fi_Tf it))).
      { apply fin_float32. refine (fin_sub _ _ prec24 max24 _ _ _ _ _ _ _); [apply fin_float32; exact CR|apply fin_float32; apply (fr_dur _ _ FR)|].
        apply small_le. rewrite Rabs_pos_eq; lra. }
      assert (O0' : 0 < rnd (t' - fi_Tf it)).
      { assert (0 <= rnd (t' - fi_Tf it)). { rewrite <- rnd_0. apply rnd_mono. lra. }
        assert (rnd (t' - fi_Tf it) <> 0); [|lra]. unfold Rminus. apply round_plus_neq_0; [apply valid_exp24|apply (monotone_exp_not_FTZ (FLT_exp (-149) 24)); apply FLT_exp_monotone|apply valid_rnd_N| | |lra].
        - apply (fin_format 24 128 (st_time st1)). apply fin_float32. exact CR.
        - apply generic_format_opp. apply (fin_format 24 128 (p_duration (mo_prof (c_getHead A c)))). apply fin_float32. apply (fr_dur _ _ FR). }
      set (O' := rnd (t' - fi_Tf it)) in *.
      assert (O1' : O' <= G) by (unfold eps, eta, tick_gap in *; lra).
      set (c3 := c_emit (c_with_st (c_pop c2) (next_st c2)) [motionCompleted]).
      assert (ST3 : c_st c3 = mkST off off 0 w).
      { cbn [c3 c_emit c_with_st c_st]. unfold next_st. change (c_st c2) with st1. change (c_getHead A c2) with (c_getHead A c). unfold off. f_equal.
        unfold st1. rewrite (ticked_form _ _ A (mkST o o 0 w) w o (n + 1) FRS) by lia. reflexivity. }
      pose proof FQ as FQ'. inversion FQ' as [|o1 ? os ? FR' FQ'' EQ]; subst.
      assert (HD3 : c_getHead A c3 = o1).
      { destruct (ring_pop A (c_pop c) RG) as (EQ3 & _). { destruct (ring_pop A c LR) as (_ & _ & ->); rewrite LL; cbn [length]; lia. }
        rewrite EQ3 in EQ. injection EQ as EQ1 EQ2. rewrite EQ1. reflexivity. }
      assert (LV3 : c_level c3 = N.of_nat (S (length its'))). { destruct (ring_pop A c LR) as (_ & _ & E); [lia|]. change (c_level c3) with (c_level (c_pop c)). rewrite E, LL. cbn [length]. lia. }
      pose proof (fr_Tf _ _ FR') as TF'. cbn [map linked] in LJN. destruct LJN as (b & J1 & JB & JN & LJN). unfold meets in JN.
      assert (JI : INR (S jn) <= 33). { replace 33 with (INR 33) by (cbn; lra). apply le_INR. lia. }
      assert (JO : 1 <= INR jn) by (apply (le_INR 1); exact J1).
      assert (SJ : INR (S jn) = INR jn + 1) by apply S_INR. assert (J0 : 0 <= INR jn) by apply pos_INR.
      assert (BEG : forall i, (i < 3)%nat -> Rabs (k i * path_pos (it_P it') i 0 - fpos i c) <= err0 + drift (S jn)).
      { intros i Hi. specialize (END i Hi). specialize (JN i Hi). rewrite Rmult_minus_distr_l in JN. unfold drift in *. change (INR 0) with 0 in END. apply Rabs_le_inv in END. apply Rabs_le_inv in JN. apply Rabs_le. destruct (mo_isMoving _ _ _); lra. }
      assert (BEG' : exists jn' b', (1 <= jn')%nat /\ (jn' + b' <= 32)%nat /\ linked (it_P it') (map (fun it => it_P it) its') b' /\
        forall i, (i < 3)%nat -> mo_isMoving A o1 i = false -> Rabs (k i * path_pos (it_P it') i 0 - fpos i c) <= err0 + drift jn').
      { destruct LJN as [(FL & LJN)|LJN].
        - exists jn, b. do 3 (split; [assumption|]). intros i Hi EM. specialize (END i Hi). destruct (mo_isMoving A (c_getHead A c) i) eqn:EM0.
          + specialize (JN i Hi). rewrite Rmult_minus_distr_l in JN. unfold drift in *. change (INR 0) with 0 in END. apply Rabs_le_inv in END. apply Rabs_le_inv in JN. apply Rabs_le. lra.
          + rewrite (FL i Hi); [exact END|exact (fun x y => pos_fixed _ _ FR i x y Hi EM0)|exact (fun x y => pos_fixed _ _ FR' i x y Hi EM)].
        - destruct b as [|b]; [contradiction|]. exists (S jn), b. split; [lia|]. split; [lia|]. split; [exact LJN|]. intros i Hi _. exact (BEG i Hi). }
      destruct BEG' as (jn' & b' & J1' & JB' & LJN' & BEG').
      assert (RO0 : reads W O' 0 = O').
      { unfold reads. change (IZR (Z.of_N 0)) with 0. rewrite !rnd_0, Rmult_0_l, rnd_0, Rplus_0_l. apply rnd_id. apply (fin_format 24 128 off). apply fin_float32. exact FO'. }
      rewrite advance_stay. 2:{ rewrite ST3, HD3. refine (eq_trans (fin_ltb 24 128 _ _ _ _ (proj2 (fin_float32 _ _) (fr_dur _ _ FR')) (proj2 (fin_float32 _ _) FO')) _). apply Rlt_bool_false. lra. }
      destruct (move_fin _ _ FR' c3 O' (fun i => k i * path_pos (it_P it') i 0) (fun _ => err0 + drift (S jn)) (fun _ => 1/20)) as (c' & E1 & (F1 & F2 & F3 & F4 & F5 & F6 & F7 & F8) & L1 & P1);
        [exact HD3|exact LP|rewrite ST3; exact FO'|lra| |].
      { intros i Hi EM. split; [exact (BEG i Hi)|]. split; [apply (y_first _ _ FR'); auto; lra|]. unfold drift. lra. }
      exists c'. split; [exact E1|]. right. left. exists it', its', off, O'. split; auto. exists jn'.
      assert (HD' : c_getHead A c' = o1) by (rewrite <- HD3; unfold c_getHead, item; now rewrite F1, F2).
      constructor; auto.
      * rewrite F5. exact LS.
      * unfold ringok in *. rewrite F1, F2, F3. exact RG.
      * congruence.
      * unfold queue. rewrite F1, F2, F3. exact FQ.
      * rewrite F4. exact ST3.
      * lra.
      * lia.
      * rewrite RO0. lra.
      * intros i Hi. rewrite RO0, HD'. specialize (P1 i Hi). destruct (mo_isMoving A o1 i) eqn:EM.
        -- rewrite Rplus_0_r. exact P1.
        -- rewrite P1. change (fpos i c3) with (fpos i c). unfold yat. rewrite (pos_fixed _ _ FR' i _ 0 Hi EM). exact (BEG' i Hi EM).
      * exists b'. auto.
      * unfold total. rewrite map_app, rsum_app. cbn [map]. cbn [rsum fold_right]. fold (total pre). rewrite !plus_IZR, !Rmult_plus_distr_r, Rmult_1_l.
        set (z := IZR (Z.of_N n) * W) in *. set (u := IZR m0 * W) in *. assert (0 <= u) by lra.
        assert (73/100 * fi_Tf it <= z + W) by lra. split; [|lra]. apply Rabs_le. unfold eps, eta in RE. lra.
      * left. rewrite RO0. exact O0'.
Qed.

(** *** The whole run. *)
Lemma where_in pre : forall x0 l post t i, Forall (fun l => 0 < lg_T l) pre -> 0 < t \/ pre = [] -> t <= lg_T l ->
  where_at x0 (pre ++ l :: post) (total pre + t) i = path_pos (lg_path l) i (lg_s l t).
Proof.
  induction pre as [|p pre IH]; intros x0 l post t i F HT HL; unfold where_at, total; cbn [app locate map rsum fold_right].
  - rewrite Rplus_0_l. destruct (Rle_dec t (lg_T l)); [reflexivity|lra].
  - inversion F; subst. destruct HT as [HT|HT]; [|discriminate]. change (fold_right Rplus 0 (map lg_T pre)) with (total pre).
    assert (T0 : 0 <= total pre). { clear - H3. unfold total. induction H3; cbn [map rsum fold_right]; [lra|]. unfold rsum in IHForall. lra. }
    destruct (Rle_dec (lg_T p + total pre + t) (lg_T p)) as [C|_]; [lra|]. replace (lg_T p + total pre + t - lg_T p) with (total pre + t) by ring.
    specialize (IH (fun i => path_pos (lg_path p) i (pa_len (lg_path p))) l post t i H3 (or_introl HT) HL). exact IH.
Qed.
Lemma end_last Ps : forall x0 P, end_of x0 (Ps ++ [P]) = fun i => path_pos P i (pa_len P).
Proof. induction Ps; intros; cbn [app end_of]; auto. Qed.
Lemma total_app a b : total (a ++ b) = total a + total b.
Proof. unfold total. rewrite map_app. apply rsum_app. Qed.
Lemma total_cons l r : total (l :: r) = lg_T l + total r.
Proof. reflexivity. Qed.
Lemma total_pos l : Forall (fun l => 0 < lg_T l) l -> 0 <= total l.
Proof. unfold total. induction 1; cbn [map rsum fold_right]; [lra|]. unfold rsum in IHForall. lra. Qed.

Lemma reach_ok j : (j <= 33)%nat -> err0 + drift j <= reach B H.
Proof.
  intro L. unfold err0, drift, dlt, reach. pose proof sl0. assert (INR j <= 33). { replace 33 with (INR 33) by (cbn; lra). apply le_INR. lia. } lra.
Qed.
Lemma err0_ok : err0 <= reach B H.
Proof. unfold err0, dlt, reach. pose proof sl0. lra. Qed.

Definition passes (x0 : nat -> R) (legs : list leg) (c : ctrl sf) (m : Z) : Prop := c_state c = ms_running /\
  exists t, 0 <= t <= total legs /\ Rabs (t - IZR m * W) <= IZR m * W / 32768 /\ forall i, (i < 3)%nat -> Rabs (k i * where_at x0 legs t i - fpos i c) <= reach B H.
Definition arrives (x0 : nat -> R) (legs : list leg) (c : ctrl sf) (m : Z) : Prop := c_state c = ms_stopped /\ c_level c = 0%N /\
  (forall i, (i < 3)%nat -> Rabs (k i * end_of x0 (map lg_path legs) i - fpos i c) <= reach B H) /\
  Rabs (total legs - IZR m * W) <= IZR m * W / 32768 + G.

Lemma live_T c pre it its n o O m0 jn : live c pre it its n o O m0 jn -> Forall (fun l => 0 < lg_T l) (map fi_leg (it :: its)).
Proof.
  intro L. pose proof (lv_queue _ _ _ _ _ _ _ _ _ L) as F. clear L. remember (it :: its) as l. clear Heql. induction F; constructor; auto. eapply Tpos; eauto.
Qed.
Lemma live_passes x0 c pre it its n o O m0 jn : live c pre it its n o O m0 jn -> Forall (fun l => 0 < lg_T l) pre ->
  forall post, Forall (fun l => 0 < lg_T l) post -> passes x0 (pre ++ map fi_leg (it :: its) ++ post) c (m0 + Z.of_N n).
Proof.
  intros L FP post FO. pose proof (live_T _ _ _ _ _ _ _ _ _ L) as FT. destruct (live_head _ _ _ _ _ _ _ _ _ L) as (FR & _ & _). cbn [map] in *. inversion FT; subst.
  pose proof (GQ _ _ FR) as GG. pose proof (lv_O _ _ _ _ _ _ _ _ _ L) as OG. pose proof (lv_n _ _ _ _ _ _ _ _ _ L) as LN.
  pose proof (reads_pos O n ltac:(lra) FW o (lv_o _ _ _ _ _ _ _ _ _ L) ltac:(lia)) as RP. pose proof (rmin_in _ _ FR _ RP) as RM.
  split; [apply L|]. exists (total pre + Rmin (reads W O n) (it_T it)). split; [|split; [apply (live_time _ _ _ _ _ _ _ _ _ L)|]].
  - cbn [app]. rewrite total_app, total_cons, total_app. pose proof (total_pos _ FP). pose proof (total_pos _ H3). pose proof (total_pos _ FO). lra.
  - intros i Hi. cbn [app]. rewrite where_in; auto; [|destruct (lv_first _ _ _ _ _ _ _ _ _ L); [left; apply Rmin_glb_lt; lra|auto]|lra].
    pose proof (lv_close _ _ _ _ _ _ _ _ _ L i Hi) as C. destruct (lv_joined _ _ _ _ _ _ _ _ _ L) as (b & J1 & JB & _). eapply Rle_trans; [exact C|].
    destruct (mo_isMoving A (c_getHead A c) i); [pose proof err0_ok; lra|apply reach_ok; lia].
Qed.

Definition left_ticks (n : N) (its : list fitem) : N := (N.of_nat (length its) * 2 ^ 32 + (2 ^ 32 - n))%N.
Lemma run_live x0 : forall z c pre it its n o O m0 jn, z = left_ticks n its -> live c pre it its n o O m0 jn -> Forall (fun l => 0 < lg_T l) pre ->
  let legs := pre ++ map fi_leg (it :: its) in
  exists (N : nat) c', ticks_run A M N c = Ok c' /\ arrives x0 legs c' (m0 + Z.of_N n + Z.of_nat N) /\
    forall j, (j < N)%nat -> exists cj, ticks_run A M j c = Ok cj /\ passes x0 legs cj (m0 + Z.of_N n + Z.of_nat j).
Proof.
  induction z as [z IH] using (well_founded_induction N.lt_wf_0). intros c pre it its n o O m0 jn EZ L FP. cbv zeta.
  pose proof (live_passes x0 _ _ _ _ _ _ _ _ _ L FP [] (Forall_nil _)) as PA. rewrite app_nil_r in PA. pose proof (live_T _ _ _ _ _ _ _ _ _ L) as FT. pose proof (lv_n _ _ _ _ _ _ _ _ _ L) as LN. destruct (lv_joined _ _ _ _ _ _ _ _ _ L) as (b & J1 & JB & _).
  destruct (tick_live _ _ _ _ _ _ _ _ _ L) as (c1 & E1 & [L1|[(it' & its' & o' & O' & -> & jn' & L1)|(-> & S1 & V1 & _ & P1 & T1)]]).
  - destruct (IH (left_ticks (n + 1) its)) with (c := c1) (pre := pre) (it := it) (its := its) (n := (n + 1)%N) (o := o) (O := O) (m0 := m0) (jn := jn) as (N & c' & R1 & R2 & R3); auto.
    { subst z. unfold left_ticks. lia. }
    exists (S N), c'. split; [cbn [ticks_run]; rewrite E1; exact R1|]. split; [replace (m0 + Z.of_N n + Z.of_nat (S N))%Z with (m0 + Z.of_N (n + 1) + Z.of_nat N)%Z by lia; exact R2|].
    intros [|j] Hj; [exists c; split; [reflexivity|]; rewrite Z.add_0_r; exact PA|]. destruct (R3 j ltac:(lia)) as (cj & Q1 & Q2). exists cj.
    split; [cbn [ticks_run]; rewrite E1; exact Q1|]. replace (m0 + Z.of_N n + Z.of_nat (S j))%Z with (m0 + Z.of_N (n + 1) + Z.of_nat j)%Z by lia. exact Q2.
  - assert (FP' : Forall (fun l => 0 < lg_T l) (pre ++ [fi_leg it])). { cbn [map] in FT. inversion FT; subst. apply Forall_app. split; auto. }
    destruct (IH (left_ticks 0 its')) with (c := c1) (pre := pre ++ [fi_leg it]) (it := it') (its := its') (n := 0%N) (o := o') (O := O') (m0 := (m0 + Z.of_N n + 1)%Z) (jn := jn') as (N & c' & R1 & R2 & R3); auto.
    { subst z. unfold left_ticks. cbn [length]. lia. }
    rewrite <- app_assoc in R2, R3. cbn [app] in R2, R3.
    exists (S N), c'. split; [cbn [ticks_run]; rewrite E1; exact R1|]. split; [replace (m0 + Z.of_N n + Z.of_nat (S N))%Z with (m0 + Z.of_N n + 1 + Z.of_N 0 + Z.of_nat N)%Z by lia; exact R2|].
    intros [|j] Hj; [exists c; split; [reflexivity|]; rewrite Z.add_0_r; exact PA|]. destruct (R3 j ltac:(lia)) as (cj & Q1 & Q2). exists cj.
    split; [cbn [ticks_run]; rewrite E1; exact Q1|]. replace (m0 + Z.of_N n + Z.of_nat (S j))%Z with (m0 + Z.of_N n + 1 + Z.of_N 0 + Z.of_nat j)%Z by lia. exact Q2.
  - exists 1%nat, c1. split; [cbn [ticks_run]; rewrite E1; reflexivity|]. split.
    + split; auto. split; auto. cbn [map]. rewrite map_app. cbn [map]. rewrite end_last, total_app, total_cons. change (total []) with 0. rewrite Rplus_0_r. split.
      * intros i Hi. eapply Rle_trans; [apply P1; auto|]. apply reach_ok. lia.
      * exact T1.
    + intros [|j] Hj; [|lia]. exists c. split; [reflexivity|]. rewrite Z.add_0_r. exact PA.
Qed.
End Run.
