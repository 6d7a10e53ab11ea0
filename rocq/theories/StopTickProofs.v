(** Stopping and resuming: one tick. *)
Require Import List Arith NArith ZArith Bool Reals Lra Lia ZifyBool ZifyNat ZifyN.
From Verif Require Import Base BaseProofs EventModel StepModel StepSpec StepSignalsProofs Num NumR MotionModel CtrlModel CtrlSpec CtrlProofs CtrlQueueProofs.
From Verif Require Import CtrlRSpec CtrlTrackProofs CtrlTimeProofs ProfileSpec GeomSpec GeomProofs PlanProofs RunSpec RunLegProofs RunTickProofs RunPlanProofs RunStartProofs RunProofs StopSpec StopPlanProofs StopQueueProofs.
Import ListNotations.
Open Scope R_scope.

(** *** The last items of a list *)
Definition lasts {X} (n : nat) (l : list X) : list X := skipn (length l - n) l.
Lemma lasts_all {X} (l : list X) : lasts (length l) l = l.
Proof. unfold lasts. rewrite Nat.sub_diag. reflexivity. Qed.
Lemma lasts_app {X} (a b : list X) : lasts (length b) (a ++ b) = b.
Proof. unfold lasts. rewrite app_length. replace (length a + length b - length b)%nat with (length a + 0)%nat by lia. rewrite skipn_app, skipn_all2 by lia.
  replace (length a + 0 - length a)%nat with 0%nat by lia. reflexivity. Qed.
Lemma skipn_more {X} (l : list X) : forall a b, skipn a (skipn b l) = skipn (b + a) l.
Proof. induction l as [|x l IH]; intros a [|b]; cbn [skipn plus]; auto. destruct a; reflexivity. Qed.
Lemma lasts_less {X} (l : list X) a b : (b <= a)%nat -> (a <= length l)%nat -> lasts b l = skipn (a - b) (lasts a l).
Proof. intros H1 H2. unfold lasts. rewrite skipn_more. f_equal. lia. Qed.
Lemma lasts_len {X} (l : list X) n : (n <= length l)%nat -> length (lasts n l) = n.
Proof. intro H. unfold lasts. rewrite skipn_length. lia. Qed.

(** *** Where the machine is, for two sequences of legs that begin in the same way *)
Lemma locate_swap legs : forall x0 T x l tail t, locate x0 legs T = (x, l :: tail, t) ->
  exists done, legs = done ++ l :: tail /\
    forall l' tail', t <= lg_T l' -> lg_path l' = lg_path l -> (forall y, y <= t -> lg_s l' y = lg_s l y) ->
      locate x0 (done ++ l' :: tail') T = (x, l' :: tail', t) /\
      forall y i, y <= T -> where_at x0 (done ++ l' :: tail') y i = where_at x0 legs y i.
Proof.
  induction legs as [|a rest IH]; intros x0 T x l tail t E; cbn [locate] in E; [discriminate|].
  destruct (Rle_dec T (lg_T a)) as [LE|GT].
  - inversion E; subst. exists []. split; auto. intros l' tail' H1 H2 H3. cbn [app]. split.
    + cbn [locate]. destruct (Rle_dec t (lg_T l')); [reflexivity|lra].
    + intros y i Hy. unfold where_at. cbn [locate]. destruct (Rle_dec y (lg_T l')); [|lra]. destruct (Rle_dec y (lg_T l)); [|lra].
      rewrite H2, H3 by auto. reflexivity.
  - destruct (IH _ _ _ _ _ _ E) as (done & D1 & D2). exists (a :: done). split; [cbn [app]; congruence|].
    intros l' tail' H1 H2 H3. destruct (D2 l' tail' H1 H2 H3) as [E1 E2]. cbn [app]. split.
    + cbn [locate]. destruct (Rle_dec T (lg_T a)); [lra|]. exact E1.
    + intros y i Hy. unfold where_at. cbn [locate]. destruct (Rle_dec y (lg_T a)); [reflexivity|].
      apply (E2 (y - lg_T a) i ltac:(lra)).
Qed.
Lemma locate_split legs : forall x0 T x legs' t, locate x0 legs T = (x, legs', t) -> exists done, legs = done ++ legs'.
Proof.
  induction legs as [|a rest IH]; intros x0 T x legs' t E; cbn [locate] in E.
  - inversion E; subst. exists []. auto.
  - destruct (Rle_dec T (lg_T a)); [inversion E; subst; exists []; auto|]. destruct (IH _ _ _ _ _ E) as (d & D). exists (a :: d). cbn [app]. congruence.
Qed.
Lemma locate_time legs : forall x0 T x legs' t, 0 <= T -> locate x0 legs T = (x, legs', t) -> 0 <= t.
Proof.
  induction legs as [|a rest IH]; intros x0 T x legs' t H E; cbn [locate] in E.
  - inversion E; subst; auto.
  - destruct (Rle_dec T (lg_T a)); [inversion E; subst; auto|]. eapply IH; [|exact E]. lra.
Qed.

Lemma locate_le legs : forall x0 T x legs' t, Forall (fun l => 0 < lg_T l) legs -> locate x0 legs T = (x, legs', t) -> t <= T.
Proof.
  induction legs as [|a rest IH]; intros x0 T x legs' t F E; cbn [locate] in E.
  - inversion E; subst; lra.
  - inversion F; subst. destruct (Rle_dec T (lg_T a)); [inversion E; subst; lra|]. apply IH in E; auto. lra.
Qed.
Lemma locate_back legs : forall x0 T x l ls t e, Forall (fun l => 0 < lg_T l) legs -> locate x0 legs T = (x, l :: ls, t) -> 0 <= e < t ->
  locate x0 legs (T - e) = (x, l :: ls, t - e).
Proof.
  induction legs as [|a rest IH]; intros x0 T x l ls t e F E He; cbn [locate] in *; [discriminate|]. inversion F as [|? ? F1 F2]; subst.
  destruct (Rle_dec T (lg_T a)).
  - inversion E; subst. destruct (Rle_dec (t - e) (lg_T l)); [reflexivity|lra].
  - pose proof (locate_le _ _ _ _ _ _ F2 E). destruct (Rle_dec (T - e) (lg_T a)); [lra|].
    replace (T - e - lg_T a) with (T - lg_T a - e) by ring. apply IH; auto.
Qed.

Lemma Forall2_len {X Y} (P : X -> Y -> Prop) l1 l2 : Forall2 P l1 l2 -> length l1 = length l2.
Proof. induction 1; cbn [length]; auto. Qed.

Section Index.
Variable M : machine xr.
Notation A := x_arith.
Lemma advance_index fuel : forall c c', c_advance A M fuel c = Ok c' -> (st_index (c_st c') <= st_index (c_st c))%N.
Proof.
  induction fuel as [|f IH]; intros c c' H; cbn [c_advance] in H; destruct (st_isBeyond A (c_st c) _).
  - destruct (1 <? c_level c)%N; [discriminate|]. inversion H; subst. cbn. lia.
  - destruct (move_frame M c c' H) as (_ & _ & _ & -> & _). lia.
  - destruct (1 <? c_level c)%N.
    + apply IH in H. cbn in H. lia.
    + inversion H; subst. cbn. lia.
  - destruct (move_frame M c c' H) as (_ & _ & _ & -> & _). lia.
Qed.
Lemma tick_index c c' : c_tick A M c = Ok c' -> (st_index (c_st c) + 1 < two32)%N -> (st_index (c_st c') <= st_index (c_st c) + 1)%N.
Proof.
  intros H HI. unfold c_tick in H. destruct (c_isRunning _).
  - apply advance_index in H.
    assert (E : add32 (st_index (c_st c)) 1 = (st_index (c_st c) + 1)%N) by (unfold add32; apply w32_small; auto).
    destruct (st_isBeyond _ _ _) in H; cbn [c_emit c_with_state c_with_st c_st st_next st_index c_with_sig] in H; rewrite E in H; exact H.
  - inversion H; subst. cbn [c_with_sig c_st]. lia.
Qed.
End Index.

Section Session.
Variables (M : machine xr) (r : rmach) (w fo : R) (N : nat).
Notation A := x_arith.
Hypothesis MI : machine_is M r.
Hypothesis FO : 0 < fo.
Hypothesis W : 0 < w.
Hypothesis RATE : forall i, (i < 3)%nat -> tick_rate r w i + INR N * creep r w i <= 1.

Lemma fine_moves f l : leg_fine r f fo l -> leg_moves r l.
Proof. intros (OK & HT & V & a & d & vm & v & acc & LO & VM & _ & PS). eapply plan_moves; eauto. Qed.
Definition fine (q : mp) (l : leg) : Prop := leg_fine r (sm_vFeed (fst q)) fo l /\ lg_path l = snd q.
Lemma fine_all qs legs : Forall2 fine qs legs -> Forall (leg_moves r) legs /\ map lg_path legs = map snd qs.
Proof.
  induction 1 as [|q l qs legs [H1 H2] _ [I1 I2]]; [auto|]. split; [constructor; auto; eapply fine_moves; eauto|]. cbn [map]. congruence.
Qed.

(** The rest of the queue: planned to run. *)
Inductive tailed : list (motion xr) -> list mp -> list leg -> Prop :=
| tailed_nil : tailed [] [] []
| tailed_cons o os q qs l ls : rdy M r fo maximizeSpeed o q -> courses M r fo 0 o q l -> tailed os qs ls -> tailed (o :: os) (q :: qs) (l :: ls).
Lemma tailed_any os qs ls : tailed os qs ls -> Forall2 (any M r fo) os qs.
Proof. induction 1; constructor; auto. exists maximizeSpeed; auto. Qed.
Lemma tailed_runs os qs ls : tailed os qs ls -> Forall (exec r) qs -> Forall2 (runs 0) os ls.
Proof. induction 1; intro EX; constructor; inversion EX; subst; auto. eapply courses_runs; eauto. Qed.
Lemma tailed_app os qs ls o q l : tailed os qs ls -> rdy M r fo maximizeSpeed o q -> courses M r fo 0 o q l -> tailed (os ++ [o]) (qs ++ [q]) (ls ++ [l]).
Proof. induction 1; intros; cbn [app]; constructor; auto. constructor. Qed.
Lemma tailed_make qs : Forall (exec r) qs -> forall os, Forall2 (rdy M r fo maximizeSpeed) os qs -> exists ls, Forall2 fine qs ls /\ tailed os qs ls.
Proof.
  induction 1 as [|q qs EX _ IH]; intros os F2; inversion F2 as [|o ? os' ? R0 F2']; subst.
  - exists []. split; constructor.
  - destruct (ready_courses M r fo o q EX R0) as (l & P1 & P2 & P3). destruct (IH os' F2') as (ls & Q1 & Q2).
    exists (l :: ls). split; constructor; auto. split; auto. eapply courses_fine; eauto.
Qed.
Lemma tailed_skip os qs ls : tailed os qs ls -> forall k, tailed (skipn k os) (skipn k qs) (skipn k ls).
Proof. induction 1; intros [|k]; cbn [skipn]; try constructor; auto. Qed.

Definition stocked (t : R) (os : list (motion xr)) (qs : list mp) (legs : list leg) : Prop :=
  match os, qs, legs with
  | o :: os', q :: qs', l :: ls => (exists b, 0 <= b <= t /\ courses M r fo b o q l) /\ tailed os' qs' ls
  | _, _, _ => False
  end.
Lemma stocked_queued t os qs legs : stocked t os qs legs -> Forall (exec r) qs -> exists b, b <= t /\ queued b os legs.
Proof.
  destruct os as [|o os], qs as [|q qs], legs as [|l ls]; cbn [stocked]; try tauto. intros [(b & B1 & B2) TL] EX. inversion EX; subst.
  exists b. split; [lra|]. constructor; [eapply courses_runs; eauto|]. eapply tailed_runs; eauto.
Qed.
Lemma stocked_fresh os qs legs : tailed os qs legs -> legs <> [] -> stocked 0 os qs legs.
Proof. intros [|o os' q qs' l ls H1 H2 H3] NE; [congruence|]. split; auto. exists 0. split; auto. lra. Qed.
Lemma stocked_later t os qs legs x t2 x2 l2 ls2 : stocked t os qs legs -> 0 <= t <= t2 -> forall t', locate x legs t2 = (x2, l2 :: ls2, t') ->
  stocked t' (skipn (length legs - length (l2 :: ls2)) os) (skipn (length legs - length (l2 :: ls2)) qs) (l2 :: ls2).
Proof.
  destruct os as [|o os], qs as [|q qs], legs as [|l ls]; cbn [stocked]; try tauto. intros [(b & B1 & B2) TL] HT t' E.
  cbn [locate] in E. destruct (Rle_dec t2 (lg_T l)) as [LE|GT].
  - inversion E; subst. rewrite Nat.sub_diag. cbn [skipn stocked]. split; auto. exists b. split; auto. lra.
  - destruct (locate_split _ _ _ _ _ _ E) as (d & D). assert (TP : 0 <= t') by (eapply locate_time; [|exact E]; lra).
    assert (K : (length (l :: ls) - length (l2 :: ls2) = S (length d))%nat) by (rewrite D; cbn [length]; rewrite app_length; cbn [length]; lia).
    rewrite K. cbn [skipn]. pose proof (tailed_skip _ _ _ TL (length d)) as TS. rewrite D in TS at 1.
    rewrite skipn_app, skipn_all, Nat.sub_diag in TS. cbn [app skipn] in TS.
    inversion TS as [|o' os' q' qs' l' ls' U1 U2 U3]; subst. cbn [stocked]. split; auto. exists 0. split; auto. lra.
Qed.

(** *** The state of a controller with motions left *)
Record tracked (c : ctrl xr) (x : nat -> R) (legs : list leg) (t : R) (n : nat) (prev : nat -> option dir) : Prop := {
  tr_wf : wfq c;
  tr_clock : clock c w t;
  tr_t : 0 <= t;
  tr_head : head_T legs t;
  tr_some : legs <> [];
  tr_chain : chained x (map lg_path legs);
  tr_moves : Forall (leg_moves r) legs;
  tr_range : Forall (fun l => ranged r (lg_path l)) legs;
  tr_fo : c_fo c = XF fo;
  tr_pos : length (c_pos c) = 3%nat;
  tr_close : close r w c (now x legs t) n;
  tr_prev : last_cmd r w N c (now x legs t) prev;
  tr_index : IZR (Z.of_N (st_index (c_st c))) * w <= t }.
Lemma live_tracked c x legs t n prev : live r w fo N c x legs t n prev -> tracked c x legs t n prev.
Proof. intros []. constructor; auto. Qed.
Lemma tracked_live c x legs t n prev : tracked c x legs t n prev -> c_state c = ms_running -> (exists b, b <= t /\ queued b (queue A c) legs) ->
  live r w fo N c x legs t n prev.
Proof. intros [] H1 H2. constructor; auto. Qed.

(** Coming to a stop in [k] ticks; stopped when [k] is 0. *)
Definition halting (c : ctrl xr) (qs : list mp) (legs : list leg) (t : R) (k : nat) : Prop :=
  exists q qs1 l ls h os t0 ts tR, qs = q :: qs1 /\ legs = l :: ls /\ queue A c = h :: os /\ brakes M r fo h q l t0 ts tR /\
    0 <= t0 <= t /\ tR = t + INR k * w /\ tR <= ts + w /\ c_state c = (if (k =? 0)%nat then ms_stopped else ms_stopping) /\ Forall2 (any M r fo) os qs1.
(** [ph]: how many ticks until it has stopped, [None] when not stopping. *)
Definition phase (c : ctrl xr) (qs : list mp) (legs : list leg) (t : R) (ph : option nat) : Prop :=
  match ph with
  | None => c_state c = ms_running /\ stocked t (queue A c) qs legs
  | Some k => halting c qs legs t k
  end.

Variable x0 : nat -> R.
Definition sinv (c : ctrl xr) (qs : list mp) (legs : list leg) (T : R) (prev : nat -> option dir) (ph : option nat) : Prop :=
  0 <= T /\ legs <> [] /\ (length legs <= N)%nat /\ Forall (exec r) qs /\ Forall2 fine qs legs /\
  exists x legs' t', locate x0 legs T = (x, legs', t') /\
    match legs' with
    | [] => ph = None /\ at_rest c w fo /\ (forall i, prev i = None) /\ close r w c x (length legs)
    | _ => tracked c x legs' t' (length legs - length legs') prev /\ phase c (lasts (length legs') qs) legs' t' ph
    end.

(** A tick of a controller coming to a stop. *)
Lemma tick_halting c x qs legs t n prev k : tracked c x legs t n prev -> halting c qs legs t (S k) -> Forall (exec r) qs ->
  (st_index (c_st c) + 1 < two32)%N -> (n + length legs <= N)%nat ->
  exists c' cs, c_tick A M c = Ok c' /\ (length cs = 3%nat \/ cs = []) /\ c_sig c' = sg_cmds (sg_next (c_sig c)) 0 cs /\
    c_pos c' = add_cmds (c_pos c) cs /\
    (forall i, (i < 3)%nat -> calm r w N i -> prev i <> None -> nth i cs None = None) /\
    tracked c' x legs (t + w) n (fun i => nth i cs None) /\ halting c' qs legs (t + w) k /\ head_T legs (t + w).
Proof.
  intros TR (q & qs1 & l & ls & h & os & t0 & ts & tR & -> & -> & QE & BK & HT0 & ETR & HTR & ST & AN) EX HI HN.
  cbn [Nat.eqb] in ST. pose proof TR as [WF CK TP HD SM CH MV RG FE PL CL PV IX]. pose proof BK as [B1 B2 B3 B4 B5 B6 B7 B8 B9 B10 B11].
  assert (EQ : exec r q) by (inversion EX; auto). rewrite S_INR in ETR. pose proof (pos_INR k) as KP.
  assert (KW : 0 <= INR k * w) by (apply Rmult_le_pos; lra).
  assert (HD' : t + w < lg_T l) by lra.
  set (c1 := c_with_st (c_with_sig c (sg_next (c_sig c))) (st_next A (c_st c))).
  destruct (tick_st w c t CK HI) as [CK1 IX1]. fold c1 in CK1.
  set (c2 := if (k =? 0)%nat then c_emit (c_with_state c1 ms_stopped) [motionStopped] else c1).
  assert (CK2 : clock c2 w (t + w)) by (unfold c2; destruct (k =? 0)%nat; exact CK1).
  assert (LV : c_level c <> 0%N). { intro E. unfold queue in QE. rewrite E in QE. discriminate QE. }
  destruct (queue_pop c WF) as (Q1 & _); [lia|]. rewrite QE in Q1. injection Q1 as QH _.
  assert (GH : c_getHead A c2 = h). { rewrite QH. unfold c2. destruct (k =? 0)%nat; reflexivity. }
  assert (TK : c_tick A M c = c_move A M c2).
  { unfold c_tick. unfold c_isRunning. cbn [c_state c_with_sig]. rewrite ST.
    change (c_with_st (c_with_sig c (sg_next (c_sig c))) (st_next A (c_st (c_with_sig c (sg_next (c_sig c)))))) with c1.
    assert (E1 : st_isBeyond A (c_st c1) (p_tStop (mo_prof (c_getHead A c1))) = (k =? 0)%nat).
    { change (c_getHead A c1) with (c_getHead A c). rewrite <- QH. unfold st_isBeyond. rewrite B3. destruct CK1 as (_ & o & _ & _ & ->).
      change (nltb (aF A) (XF ts) (XF (t + w))) with (rltb ts (t + w)). destruct (Nat.eqb_spec k 0) as [->|NE].
      - apply rltb_true. cbn [INR] in *. lra.
      - apply rltb_false. assert (1 <= INR k) by (apply (le_INR 1); lia). assert (w <= INR k * w) by (rewrite <- (Rmult_1_l w) at 1; apply Rmult_le_compat_r; lra). lra. }
    rewrite E1. fold c2. assert (E2 : st_isBeyond A (c_st c2) (p_duration (mo_prof (c_getHead A c2))) = false).
    { rewrite GH. unfold st_isBeyond. rewrite B4. destruct CK2 as (_ & o & _ & _ & ->). reflexivity. }
    destruct (N.to_nat (c_level c2)); cbn [c_advance]; rewrite E2; reflexivity. }
  assert (CA : carries (c_getHead A c2) l).
  { rewrite GH. assert (EP : lg_path l = snd q) by apply B11. destruct (carries_lemma r h q l EQ B1 B2 EP). constructor; auto. }
  assert (PS : p_s x_num (mo_prof (c_getHead A c2)) (XF (t + w)) = XF (lg_s l (t + w))) by (rewrite GH; apply B5; lra).
  assert (LM : leg_moves r l) by (inversion MV; auto). assert (RG0 : ranged r (lg_path l)) by (inversion RG; auto).
  assert (SB : 0 <= lg_s l (t + w) <= pa_len (lg_path l)).
  { rewrite <- (lm_s0 _ _ LM) at 1. rewrite <- (lm_sT _ _ LM). split; apply (lm_mono _ _ LM); lra. }
  assert (MVD : forall i, (i < 3)%nat -> Rabs (rm_k r i * path_pos (lg_path l) i (lg_s l (t + w)) - rm_k r i * now x (l :: ls) t i) <= tick_rate r w i).
  { intros i Hi. destruct (rmach_pos M r MI i Hi) as (_ & _ & KPO). cbn [now].
    rewrite <- Rmult_minus_distr_l, Rabs_mult, (Rabs_right (rm_k r i)) by lra. unfold tick_rate. rewrite Rmult_assoc.
    apply Rmult_le_compat_l; [lra|]. replace w with (t + w - t) at 2 by ring. apply (lm_speed _ _ LM); auto; lra. }
  assert (PO : c_pos c2 = c_pos c) by (unfold c2; destruct (k =? 0)%nat; reflexivity).
  destruct (move_close M r w N MI W RATE c c2 (now x (l :: ls) t) n n prev l (t + w) PL PO CK2 CA PS) as (c3 & M1 & M2 & M3); auto; [lia| |].
  { intros i Hi STL. rewrite (STL (lg_s l (t + w)) (lg_s l t)). exact (CL i Hi). }
  rewrite M1 in TK. destruct (tick_cmds A M c c3 PL TK) as (cs & K1 & K2 & K3).
  destruct (move_frame M c2 c3 M1) as (G1 & G2 & G3 & G4 & G5 & G6). destruct (M3 cs K3) as (Z1 & Z2 & Z3).
  assert (F2 : c_items c2 = c_items c /\ c_head c2 = c_head c /\ c_level c2 = c_level c /\ c_fo c2 = c_fo c /\ c_st c2 = c_st c1).
  { unfold c2. destruct (k =? 0)%nat; repeat split. } destruct F2 as (F1 & F2 & F3 & F4 & F5).
  exists c3, cs. split; auto. split; auto. split; auto. split; auto. split; auto. split.
  - constructor; auto.
    + destruct WF as (U1 & U2 & U3). unfold wfq. rewrite G1, G2, G3, F1, F2, F3. auto.
    + unfold clock. rewrite G4. exact CK2.
    + lra.
    + cbn [head_T]. lra.
    + assert (c_fo c3 = c_fo c2) as ->; [|rewrite F4; exact FE].
      destruct (move_ok A M c2 c3) as (? & _ & _ & _ & ->); auto. rewrite PO; exact PL.
    + rewrite G4, F5. change (st_index (c_st c1)) with (st_index (st_next A (c_st c))). rewrite IX1, N2Z.inj_add, plus_IZR. cbn [Z.of_N]. lra.
  - split; [|cbn [head_T]; lra]. exists q, qs1, l, ls, h, os, t0, ts, tR. split; auto. split; auto.
    split. { rewrite <- QE. unfold queue. rewrite G1, G2, G3, F1, F2, F3. reflexivity. }
    split; auto. split; [lra|]. split; [lra|]. split; [lra|]. split; auto. rewrite G5. unfold c2. destruct (k =? 0)%nat; [reflexivity|exact ST].
Qed.

Definition pace (c : ctrl xr) : R := match c_state c with ms_stopped => 0 | _ => w end.

Lemma tracked_sig c g x legs t n prev : tracked c x legs t n prev -> tracked (c_with_sig c g) x legs t n prev.
Proof. intros []. constructor; auto. Qed.
Lemma sinv_sig c g qs legs T prev ph : sinv c qs legs T prev ph -> sinv (c_with_sig c g) qs legs T prev ph.
Proof.
  intros (H1 & H2 & H3 & H4 & H5 & x & legs' & t' & E & H). repeat (split; [assumption|]). exists x, legs', t'. split; auto.
  destruct legs'.
  - destruct H as (R1 & R2 & R3). split; auto. split; [apply rest_sig; auto|auto].
  - destruct H as (R1 & R2). split; [apply tracked_sig; auto|]. destruct ph; exact R2.
Qed.
Lemma tracked_none c x legs t n prev : tracked c x legs t n prev -> tracked c x legs t n (fun _ => None).
Proof. intros []. constructor; auto. intros i d _ E. discriminate. Qed.
Lemma tracked_prev c x legs t n p q : (forall i, p i = q i) -> tracked c x legs t n p -> tracked c x legs t n q.
Proof. intros E []. constructor; auto. intros i d Hi. rewrite <- E. apply tr_prev0; auto. Qed.

Lemma sinv_pos c qs legs T prev ph : sinv c qs legs T prev ph -> length (c_pos c) = 3%nat.
Proof.
  intros (_ & _ & _ & _ & _ & x & legs' & t' & E & H). destruct legs'; destruct H as [H H'].
  - apply (ar_pos _ _ _ (proj1 H')). - apply (tr_pos _ _ _ _ _ _ H).
Qed.

Lemma tick_sinv c qs legs T prev ph : sinv c qs legs T prev ph -> (st_index (c_st c) + 1 < two32)%N ->
  exists c' cs, c_tick A M c = Ok c' /\ (length cs = 3%nat \/ cs = []) /\ c_sig c' = sg_cmds (sg_next (c_sig c)) 0 cs /\
    c_pos c' = add_cmds (c_pos c) cs /\
    (forall i, (i < 3)%nat -> calm r w N i -> prev i <> None -> nth i cs None = None) /\
    sinv c' qs legs (T + pace c) (fun i => nth i cs None) (option_map pred ph) /\ (c_state c = ms_stopped -> c_state c' = ms_stopped).
Proof.
  intros IV HI. pose proof (sinv_pos _ _ _ _ _ _ IV) as HL. pose proof IV as (H1 & H2 & H3 & H4 & H5 & x & legs' & t' & E & H).
  assert (LEN : (length legs' <= length legs)%nat) by (eapply locate_len; eauto).
  assert (QL : length qs = length legs) by (eapply Forall2_len; eauto).
  assert (STOP : c_state c = ms_stopped -> (forall i, prev i = None -> True) ->
     sinv c qs legs T (fun _ => None) (option_map pred ph) ->
     exists c' cs, c_tick A M c = Ok c' /\ (length cs = 3%nat \/ cs = []) /\ c_sig c' = sg_cmds (sg_next (c_sig c)) 0 cs /\
    c_pos c' = add_cmds (c_pos c) cs /\
    (forall i, (i < 3)%nat -> calm r w N i -> prev i <> None -> nth i cs None = None) /\
    sinv c' qs legs (T + pace c) (fun i => nth i cs None) (option_map pred ph) /\ (c_state c = ms_stopped -> c_state c' = ms_stopped)).
  { intros ST _ IV'. exists (c_with_sig c (sg_next (c_sig c))), []. split; [apply tick_stopped; auto|]. split; auto. split; [reflexivity|].
    split. { cbn [c_pos c_with_sig]. symmetry. apply add_cmds_nil; auto. }
    split. { intros i _ _ _. destruct i; reflexivity. }
    split; auto. unfold pace. rewrite ST, Rplus_0_r. apply (sinv_sig c (sg_next (c_sig c))).
    destruct IV' as (V1 & V2 & V3 & V4 & V5 & x' & lg & t2 & V6 & V7). repeat (split; [assumption|]). exists x', lg, t2. split; auto. destruct lg.
    - destruct V7 as (U1 & U2 & U3 & U4). split; auto. split; auto. split; auto. intros [|i]; reflexivity.
    - destruct V7 as (U1 & U2). split; auto. eapply tracked_prev; [|exact U1]. intros [|i]; reflexivity. }
  destruct legs' as [|l ls].
  - destruct H as (-> & R & P & CL). pose proof (ar_state _ _ _ R) as ST. apply STOP; auto. cbn [option_map].
    repeat (split; [assumption|]). exists x, [], t'. auto.
  - destruct H as (TR & PH). destruct ph as [[|k]|]; cbn [phase option_map pred] in *.
    + assert (ST : c_state c = ms_stopped) by (destruct PH as (? & ? & ? & ? & ? & ? & ? & ? & ? & _ & _ & _ & _ & _ & _ & _ & K & _); exact K).
      apply STOP; auto. repeat (split; [assumption|]). exists x, (l :: ls), t'. split; auto. split; auto. eapply tracked_none; eauto.
    + assert (ST : c_state c = ms_stopping) by (destruct PH as (? & ? & ? & ? & ? & ? & ? & ? & ? & _ & _ & _ & _ & _ & _ & _ & K & _); exact K).
      assert (EXL : Forall (exec r) (lasts (length (l :: ls)) qs)).
      { unfold lasts. apply Forall_forall. intros q Hq. eapply Forall_forall in H4; eauto. rewrite <- (firstn_skipn (length qs - length (l :: ls)) qs). apply in_or_app. auto. }
      destruct (tick_halting c x _ _ t' _ prev k TR PH EXL HI ltac:(lia)) as (c' & cs & T1 & T2 & T3 & T4 & T5 & T6 & T7 & T8).
      exists c', cs. split; auto. split; auto. split; auto. split; auto. split; auto. split; [|congruence].
      unfold pace. rewrite ST. split; [lra|]. split; auto. split; auto. split; auto. split; auto. exists x, (l :: ls), (t' + w). split; auto.
      rewrite (locate_twice legs x0 T x (l :: ls) t' w ltac:(lra) E). apply locate_in. auto.
    + destruct PH as [ST SK].
      assert (EXL : Forall (exec r) (lasts (length (l :: ls)) qs)).
      { unfold lasts. apply Forall_forall. intros q Hq. eapply Forall_forall in H4; eauto. rewrite <- (firstn_skipn (length qs - length (l :: ls)) qs). apply in_or_app. auto. }
      pose proof (tracked_live _ _ _ _ _ _ TR ST (stocked_queued _ _ _ _ SK EXL)) as LV.
      destruct (locate x (l :: ls) (t' + w)) as [[x2 legs2] t2] eqn:L2.
      assert (LEN2 : (length legs2 <= length (l :: ls))%nat) by (eapply locate_len; eauto).
      destruct (tick_live M r w fo N MI W RATE c x (l :: ls) t' _ prev x2 legs2 t2 LV HI ltac:(lia) L2) as (c' & cs & T1 & T2 & T3 & T4 & T5 & T7).
      exists c', cs. split; auto. split; auto. split; auto. split; auto. split; auto. split; [|congruence].
      unfold pace. rewrite ST. split; [lra|]. split; auto. split; auto. split; auto. split; auto. exists x2, legs2, t2.
      split. { rewrite (locate_twice legs x0 T x (l :: ls) t' w ltac:(lra) E). auto. }
      destruct legs2 as [|l2 ls2].
      * destruct T7 as (R1 & R2 & R3 & R4). split; auto. split; auto. split. { intro i. rewrite R2. destruct i; reflexivity. }
        intros i Hi. replace (length legs) with (length legs - length (l :: ls) + length (l :: ls))%nat by lia. apply R3; auto.
      * destruct T7 as (R1 & R2 & R3).
        replace (length legs - length (l2 :: ls2))%nat with (length legs - length (l :: ls) + (length (l :: ls) - length (l2 :: ls2)))%nat by lia.
        split; [apply live_tracked; auto|]. split; [apply (lv_state _ _ _ _ _ _ _ _ _ _ R1)|].
        rewrite R3, (lasts_less qs (length (l :: ls)) (length (l2 :: ls2))) by lia.
        eapply stocked_later; eauto. pose proof (tr_t _ _ _ _ _ _ TR). lra.
Qed.
End Session.
