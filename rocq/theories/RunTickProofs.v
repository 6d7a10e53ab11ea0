(** Whole runs: one tick of a running controller. *)
Require Import List Arith NArith ZArith Bool Reals Lra Lia ZifyBool ZifyNat ZifyN.
From Verif Require Import Base BaseProofs EventModel StepModel StepSpec StepSignalsProofs Num NumR MotionModel CtrlModel CtrlSpec CtrlProofs CtrlQueueProofs.
From Verif Require Import CtrlRSpec CtrlTrackProofs CtrlTimeProofs ProfileSpec GeomSpec GeomProofs PlanProofs RunSpec RunLegProofs.
Import ListNotations.
Open Scope R_scope.

(** A queue item that executes a leg, from time [b] on. *)
Record runs (b : R) (o : motion xr) (l : leg) : Prop := {
  ru_d : p_duration (mo_prof o) = XF (lg_T l);
  ru_stop : p_tStop (mo_prof o) = XP;
  ru_s : forall t, b <= t <= lg_T l -> p_s x_num (mo_prof o) (XF t) = XF (lg_s l t);
  ru_pos : forall i s, (i < 3)%nat -> mo_position x_arith o i (XF s) = XF (path_pos (lg_path l) i s);
  ru_still : forall i, (i < 3)%nat -> mo_isMoving x_arith o i = false ->
    forall s s', path_pos (lg_path l) i s = path_pos (lg_path l) i s' }.
(** A queue item that follows the path of a leg. *)
Record carries (o : motion xr) (l : leg) : Prop := {
  ca_pos : forall i s, (i < 3)%nat -> mo_position x_arith o i (XF s) = XF (path_pos (lg_path l) i s);
  ca_still : forall i, (i < 3)%nat -> mo_isMoving x_arith o i = false ->
    forall s s', path_pos (lg_path l) i s = path_pos (lg_path l) i s' }.
Lemma runs_carries b o l : runs b o l -> carries o l.
Proof. intros []. constructor; auto. Qed.
(** A queue that executes legs, the first one from time [b] on. *)
Inductive queued (b : R) : list (motion xr) -> list leg -> Prop :=
| queued_nil : queued b [] []
| queued_cons o os l legs : runs b o l -> Forall2 (runs 0) os legs -> queued b (o :: os) (l :: legs).
Lemma queued_length b os legs : queued b os legs -> length os = length legs.
Proof. intros [|o os' l legs' _ F]; [reflexivity|]. cbn [length]. f_equal. induction F; cbn [length]; auto. Qed.
Lemma queued_fresh os legs : Forall2 (runs 0) os legs -> queued 0 os legs.
Proof. intros []; constructor; auto. Qed.
Lemma queued_app b os legs o l : queued b os legs -> legs <> [] -> runs 0 o l -> queued b (os ++ [o]) (legs ++ [l]).
Proof. intros [|o' os' l' legs' H F] NE RU; [congruence|]. cbn [app]. constructor; auto. apply Forall2_app; auto. Qed.
Definition ranged (r : rmach) (P : path) : Prop :=
  forall i s, (i < 3)%nat -> 0 <= s <= pa_len P -> in_range (rm_k r i * path_pos P i s).

Section Tick.
Variables (M : machine xr) (r : rmach) (w fo : R) (N : nat).
Notation A := x_arith.
Hypothesis MI : machine_is M r.
Hypothesis W : 0 < w.

Definition want (o : motion xr) (p : list Z) (s : R) (i : nat) (l : leg) : option dir :=
  if mo_isMoving A o i then dec (nth i p 0%Z) (rm_k r i * path_pos (lg_path l) i s) else None.

Lemma dec_close p x : Rabs (x - IZR p) <= 155/100 -> Rabs (x - IZR (p + zdir (dec p x))) <= 55/100.
Proof.
  intros H. apply abs_iff in H. rewrite plus_IZR. apply abs_iff.
  destruct (dec p x) as [[]|] eqn:E; cbn [zdir].
  - apply dec_fwd in E. lra.
  - apply dec_bwd in E. lra.
  - apply dec_none in E. apply abs_iff in E. lra.
Qed.

Lemma moveAxis_run o l (c : ctrl xr) i s : carries o l -> (i < 3)%nat -> length (c_pos c) = 3%nat ->
  in_range (rm_k r i * path_pos (lg_path l) i s) ->
  Rabs (rm_k r i * path_pos (lg_path l) i s - pos_of c i) <= 155/100 ->
  exists c', c_moveAxis A M o (XF s) c i = Ok c' /\
    c_pos c' = upd (c_pos c) i (nth i (c_pos c) 0 + zdir (want o (c_pos c) s i l))%Z.
Proof.
  intros RU Hi HL HR HC. destruct MI as (_ & _ & MK). destruct (MK i Hi) as (_ & _ & _ & KE & _ & _ & _ & KP).
  unfold c_moveAxis, want. destruct (mo_isMoving A o i).
  2:{ exists c. split; auto. cbn [zdir]. rewrite Z.add_0_r, upd_nth_same. auto. }
  rewrite (ca_pos _ _ RU) by auto. set (X := rm_k r i * path_pos (lg_path l) i s) in *.
  replace (path_pos (lg_path l) i s) with (X / rm_k r i) by (unfold X; field; lra).
  unfold pos_of in HC. pose proof (dec_close _ _ HC) as DC.
  unfold c_trackAxis. rewrite (decide_eq M c i X (rm_k r i)) by (auto; lra). cbn [rbind].
  destruct (dec (nth i (c_pos c) 0%Z) X) as [d|] eqn:E.
  - unfold c_stepAxis.
    assert (OK : int32_ok (nth i (c_pos c) 0 + zdir (Some d))%Z = true) by (eapply int32_near; [exact HR|lra]).
    destruct d; cbn [zdir] in *; rewrite OK; eexists; (split; [reflexivity|reflexivity]).
  - exists c. split; auto. cbn [zdir]. rewrite Z.add_0_r, upd_nth_same. auto.
Qed.

Lemma nth_upd3 (l : list Z) i j x : length l = 3%nat -> (i < 3)%nat -> nth j (upd l i x) 0%Z = if (j =? i)%nat then x else nth j l 0%Z.
Proof.
  intros HL Hi. destruct (Nat.eqb_spec j i) as [->|NE].
  - apply nth_upd_eq. lia.
  - apply nth_upd_neq. auto.
Qed.

Lemma moveAxes_run o l s js : carries o l -> (forall i, (i < 3)%nat -> in_range (rm_k r i * path_pos (lg_path l) i s)) ->
  NoDup js -> forall (c : ctrl xr), (forall i, In i js -> (i < 3)%nat) -> length (c_pos c) = 3%nat ->
  (forall i, In i js -> Rabs (rm_k r i * path_pos (lg_path l) i s - pos_of c i) <= 155/100) ->
  exists c', c_moveAxes A M o (XF s) c js = Ok c' /\ length (c_pos c') = 3%nat /\
    forall i, (i < 3)%nat -> nth i (c_pos c') 0%Z =
      (nth i (c_pos c) 0 + if in_dec Nat.eq_dec i js then zdir (want o (c_pos c) s i l) else 0)%Z.
Proof.
  intros RU HR. induction js as [|j js IH]; intros ND c HI HL HC; cbn [c_moveAxes].
  - exists c. split; auto. split; auto. intros. cbn. lia.
  - inversion ND as [|? ? NI ND']; subst. destruct (moveAxis_run o l c j s RU (HI j (or_introl eq_refl)) HL (HR j (HI j (or_introl eq_refl))) (HC j (or_introl eq_refl))) as (c1 & E1 & P1).
    rewrite E1. cbn [rbind]. assert (Hj : (j < 3)%nat) by (apply HI; left; auto).
    assert (SAME : forall i, i <> j -> nth i (c_pos c1) 0%Z = nth i (c_pos c) 0%Z).
    { intros i NE. rewrite P1, nth_upd3 by auto. destruct (Nat.eqb_spec i j); congruence. }
    destruct (IH ND' c1) as (c2 & E2 & L2 & P2).
    + intros; apply HI; right; auto.
    + rewrite P1, upd_length; auto.
    + intros i I. unfold pos_of. rewrite SAME by congruence. apply HC. right; auto.
    + exists c2. split; auto. split; auto. intros i Hi. rewrite P2 by auto.
      destruct (Nat.eq_dec i j) as [->|NE].
      * destruct (in_dec Nat.eq_dec j js); [contradiction|]. destruct (in_dec Nat.eq_dec j (j :: js)) as [_|C]; [|exfalso; apply C; left; auto].
        rewrite P1, nth_upd3, Nat.eqb_refl by auto. lia.
      * rewrite SAME by auto. unfold want. rewrite SAME by auto.
        destruct (in_dec Nat.eq_dec i js) as [I|I], (in_dec Nat.eq_dec i (j :: js)) as [I'|I']; auto.
        -- exfalso; apply I'; right; auto.
        -- destruct I'; [congruence|contradiction].
Qed.

Lemma axes_nodup : NoDup axes.
Proof. unfold axes. repeat constructor; cbn; intuition discriminate. Qed.

Lemma move_run (c : ctrl xr) l t : carries (c_getHead A c) l -> length (c_pos c) = 3%nat -> clock c w t ->
  p_s x_num (mo_prof (c_getHead A c)) (XF t) = XF (lg_s l t) ->
  (forall i, (i < 3)%nat -> in_range (rm_k r i * path_pos (lg_path l) i (lg_s l t))) ->
  (forall i, (i < 3)%nat -> Rabs (rm_k r i * path_pos (lg_path l) i (lg_s l t) - pos_of c i) <= 155/100) ->
  exists c', c_move A M c = Ok c' /\ length (c_pos c') = 3%nat /\
    forall i, (i < 3)%nat -> nth i (c_pos c') 0%Z = (nth i (c_pos c) 0 + zdir (want (c_getHead A c) (c_pos c) (lg_s l t) i l))%Z.
Proof.
  intros RU HL (CW & o & CO & CT & CE) HT HR HC. unfold c_move. rewrite CE.
  change (aF A) with x_num. rewrite HT.
  destruct (moveAxes_run (c_getHead A c) l (lg_s l t) axes RU HR axes_nodup c) as (c' & E & L & P); auto.
  - unfold axes. intros i [<-|[<-|[<-|[]]]]; lia.
  - intros i I. apply HC. unfold axes in I. destruct I as [<-|[<-|[<-|[]]]]; lia.
  - exists c'. split; auto. split; auto. intros i Hi. rewrite P by auto. destruct (in_dec Nat.eq_dec i axes) as [|C]; auto.
    exfalso. apply C. unfold axes. destruct i as [|[|[|]]]; cbn; auto; lia.
Qed.

Lemma locate_len legs : forall x0 t x legs' t', locate x0 legs t = (x, legs', t') -> (length legs' <= length legs)%nat.
Proof.
  induction legs as [|l rest IH]; intros x0 t x legs' t' E; cbn [locate] in E.
  - inversion E; auto.
  - destruct (Rle_dec t (lg_T l)); [inversion E; auto|]. apply IH in E. cbn [length]. lia.
Qed.

(** What advancing through completed motions leaves. *)
Lemma advance_run legs : forall fuel b (c : ctrl xr) x0 t x legs' t', legs <> [] -> (length legs <= fuel)%nat ->
  wfq c -> clock c w t -> IZR (Z.of_N (st_index (c_st c))) * w <= t -> b <= t -> 0 <= t -> queued b (queue A c) legs -> locate x0 legs t = (x, legs', t') ->
  match legs' with
  | [] => exists c', c_advance A M fuel c = Ok c' /\ c_pos c' = c_pos c /\ c_sig c' = c_sig c /\ c_st c' = mkST (XF 0) (XF 0) 0%N (XF w) /\
            c_state c' = ms_stopped /\ c_level c' = 0%N /\ wfq c' /\ c_fo c' = c_fo c /\
            c_events c' = c_events c ++ repeat motionCompleted (length legs - 1) ++ [motionStopped; motionCompleted; allMotionsCompleted]
  | _ => exists c', c_advance A M fuel c = c_move A M c' /\ c_pos c' = c_pos c /\ c_sig c' = c_sig c /\ clock c' w t' /\
            c_state c' = c_state c /\ wfq c' /\ c_fo c' = c_fo c /\ (exists b', b' <= t' /\ queued b' (queue A c') legs') /\
            queue A c' = skipn (length legs - length legs') (queue A c) /\
            IZR (Z.of_N (st_index (c_st c'))) * w <= t' /\
            c_events c' = c_events c ++ repeat motionCompleted (length legs - length legs')
  end.
Proof.
  induction legs as [|l rest IH]; intros fuel b c x0 t x legs' t' NE HF WF CK IX HB H0 F2 E; [congruence|].
  assert (LV : c_level c = N.of_nat (length (l :: rest))).
  { pose proof (queued_length _ _ _ F2) as K. unfold queue in K. rewrite contents_length in K. lia. }
  destruct (queue_pop c WF) as (Q1 & WF1 & L1). { rewrite LV. cbn [length]. lia. }
  rewrite Q1 in F2. inversion F2 as [|? ? ? ? RU F2']; subst.
  destruct fuel as [|fuel]; [cbn in HF; lia|]. cbn [c_advance]. cbn [locate] in E.
  destruct CK as (CW & off & CO & CT & CE).
  assert (BY : st_isBeyond A (c_st c) (p_duration (mo_prof (c_getHead A c))) = rltb (lg_T l) t).
  { unfold st_isBeyond. rewrite (ru_d _ _ _ RU), CE. reflexivity. }
  rewrite BY. destruct (Rle_dec t (lg_T l)) as [LE|GT].
  - replace (rltb (lg_T l) t) with false by (symmetry; apply rltb_false; auto).
    inversion E; subst. exists c. rewrite Nat.sub_diag. cbn [repeat]. rewrite app_nil_r.
    split; auto. split; auto. split; auto. split. { split; auto. exists off. auto. } split; auto. split; auto. split; auto.
    split. { exists b. split; auto. rewrite Q1. constructor; auto. } auto.
  - replace (rltb (lg_T l) t) with true by (symmetry; apply rltb_true; lra).
    destruct rest as [|l2 rest].
    + cbn [locate] in E. inversion E; subst. rewrite LV. change (1 <? N.of_nat (length [l]))%N with false. cbv iota.
      eexists. split; [reflexivity|]. cbn [c_emit c_with_state c_with_st c_pos c_sig c_st c_state c_level c_fo c_events].
      unfold st_initialize. cbn [c_pop c_with_queue c_st c_pos c_sig c_fo c_events]. rewrite CW. cbn [length Nat.sub repeat app].
      split; auto. split; auto. split; [reflexivity|]. split; auto. split. { change (c_level (c_pop c) = 0%N). rewrite L1, LV. reflexivity. }
      split; [|split; auto]. exact WF1.
    + assert ((1 <? c_level c)%N = true) as -> by (rewrite LV; cbn [length]; lia).
      match goal with |- context [c_advance A M fuel ?d] => set (c2 := d) end.
      assert (CK2 : clock c2 w (t - lg_T l)).
      { unfold c2, clock. cbn [c_emit c_with_st c_pop c_with_queue c_st st_initNext st_width st_offset st_index st_time].
        split; auto. exists (t - lg_T l). rewrite CE, (ru_d _ _ _ RU). cbn [nsub aF A x_num xsub xadd xopp]. split; [reflexivity|]. split; [|reflexivity].
        cbn. lra. }
      specialize (IH fuel 0 c2 (at_end l) (t - lg_T l) x legs' t' ltac:(congruence) ltac:(cbn [length] in *; lia)).
      assert (WF2 : wfq c2) by exact WF1. assert (Q2 : queue A c2 = queue A (c_pop c)) by reflexivity.
      assert (IX2 : IZR (Z.of_N (st_index (c_st c2))) * w <= t - lg_T l) by (unfold c2; cbn; lra).
      specialize (IH WF2 CK2 IX2 ltac:(lra) ltac:(lra)). rewrite Q2 in IH. specialize (IH (queued_fresh _ _ F2') E).
      destruct legs' as [|l' legs'].
      * destruct IH as (c' & I1 & I2 & I3 & I4 & I5 & I6 & I7 & I8 & I9). exists c'. split; auto. split; auto. split; auto. split; auto.
        split; auto. split; auto. split; auto. split; auto. rewrite I9. unfold c2. cbn [c_emit c_with_st c_pop c_with_queue c_events length Nat.sub].
        rewrite <- app_assoc. f_equal. replace (length rest - 0)%nat with (length rest) by lia. reflexivity.
      * destruct IH as (c' & I1 & I2 & I3 & I4 & I5 & I6 & I7 & I8 & IQ & I9 & I10). exists c'. split; auto. split; auto. split; auto. split; auto.
        split; auto. split; auto. split; auto. split; auto.
        pose proof (locate_len (l2 :: rest) (at_end l) (t - lg_T l) _ _ _ E) as LN.
        assert (SK : (length (l :: l2 :: rest) - length (l' :: legs') = S (length (l2 :: rest) - length (l' :: legs')))%nat) by (cbn [length] in *; lia).
        split. { rewrite IQ, Q1, SK. reflexivity. }
        split; [exact I9|].
        rewrite I10. unfold c2. cbn [c_emit c_with_st c_pop c_with_queue c_events].
        rewrite <- app_assoc, SK. reflexivity.
Qed.

Notation calm := (RunSpec.calm r w N).

Lemma rhaz_half p : rhaz (IZR p + 1/2) = if (0 <=? p)%Z then (p + 1)%Z else p.
Proof.
  unfold rhaz. destruct (Z.leb_spec 0 p) as [H|H].
  - apply IZR_le in H. destruct (Rle_dec 0 (IZR p + 1/2)); [|lra].
    replace (IZR p + 1/2 + 1/2) with (IZR (p + 1)) by (rewrite plus_IZR; lra). apply Int_part_IZR.
  - assert (H' : (p <= -1)%Z) by lia. apply IZR_le in H'. destruct (Rle_dec 0 (IZR p + 1/2)); [lra|].
    replace (- (IZR p + 1/2) + 1/2) with (IZR (- p)) by (rewrite opp_IZR; lra). rewrite Int_part_IZR. lia.
Qed.

Lemma dec_spaced p d x1 x2 : dec p x1 = Some d -> IZR (zdir (Some d)) * (x1 - IZR (p + zdir (Some d))) < 45/100 ->
  Rabs (x2 - x1) <= 1/10 -> dec (p + zdir (Some d)) x2 = None.
Proof.
  intros D1 B R. apply abs_iff in R.
  destruct (dec (p + zdir (Some d)) x2) as [e|] eqn:D2; auto. exfalso. rewrite plus_IZR in B.
  destruct d; cbn [zdir] in *.
  - pose proof (dec_fwd _ _ D1) as F1. destruct e.
    + apply dec_fwd in D2. rewrite plus_IZR in D2. lra.
    + pose proof (dec_bwd _ _ D2) as F2. rewrite plus_IZR in F2.
      assert (E1 : x1 = IZR p + 55/100) by lra. assert (E2 : x2 = IZR p + 45/100) by lra. subst.
      unfold dec in D1, D2.
      replace (IZR p + 55/100 - 5/100) with (IZR p + 1/2) in D1 by lra.
      replace (IZR p + 45/100 + 5/100) with (IZR p + 1/2) in D2 by lra. rewrite rhaz_half in *.
      destruct (0 <=? p)%Z.
      * revert D2. destruct (p + 1 <? _)%Z; [discriminate|]. rewrite Z.ltb_irrefl. discriminate.
      * rewrite Z.ltb_irrefl in D1. destruct (_ <? p)%Z; discriminate.
  - pose proof (dec_bwd _ _ D1) as F1. destruct e.
    2:{ apply dec_bwd in D2. rewrite plus_IZR in D2. lra. }
    pose proof (dec_fwd _ _ D2) as F2. rewrite plus_IZR in F2.
    assert (E1 : x1 = IZR p - 55/100) by lra. assert (E2 : x2 = IZR p - 45/100) by lra. subst.
    unfold dec in D1, D2.
    replace (IZR p - 55/100 + 5/100) with (IZR (p - 1) + 1/2) in D1 by (rewrite minus_IZR; lra).
    replace (IZR p - 45/100 - 5/100) with (IZR (p - 1) + 1/2) in D2 by (rewrite minus_IZR; lra). rewrite rhaz_half in *.
    destruct (0 <=? p - 1)%Z.
    * revert D1. destruct (p <? _)%Z; [discriminate|]. replace (p - 1 + 1)%Z with p by lia. rewrite Z.ltb_irrefl. discriminate.
    * revert D2. replace (p + -1 <? p - 1)%Z with false by lia. destruct (_ <? p + -1)%Z; discriminate.
Qed.

(** *** The invariant *)
Record live (c : ctrl xr) (x0 : nat -> R) (legs : list leg) (t : R) (n : nat) (prev : nat -> option dir) : Prop := {
  lv_state : c_state c = ms_running;
  lv_wf : wfq c;
  lv_clock : clock c w t;
  lv_t : 0 <= t;
  lv_head : head_T legs t;
  lv_some : legs <> [];
  lv_runs : exists b, b <= t /\ queued b (queue A c) legs;
  lv_chain : chained x0 (map lg_path legs);
  lv_moves : Forall (leg_moves r) legs;
  lv_range : Forall (fun l => ranged r (lg_path l)) legs;
  lv_fo : c_fo c = XF fo;
  lv_pos : length (c_pos c) = 3%nat;
  lv_close : forall i, (i < 3)%nat -> Rabs (rm_k r i * now x0 legs t i - pos_of c i) <= 55/100 + INR n * creep r w i;
  lv_prev : forall i d, (i < 3)%nat -> prev i = Some d -> calm i ->
    exists p, nth i (c_pos c) 0%Z = (p + zdir (Some d))%Z /\ dec p (rm_k r i * now x0 legs t i) = Some d /\
      IZR (zdir (Some d)) * (rm_k r i * now x0 legs t i - pos_of c i) < 45/100;
  lv_index : IZR (Z.of_N (st_index (c_st c))) * w <= t }.

(** With legs not too long for the clock. *)
Definition running c x0 legs t n prev : Prop := live c x0 legs t n prev /\ Forall (short w) legs.
Lemma rn_state c x0 legs t n prev : running c x0 legs t n prev -> c_state c = ms_running.
Proof. intros [[] _]. auto. Qed.
Lemma rn_head c x0 legs t n prev : running c x0 legs t n prev -> head_T legs t.
Proof. intros [[] _]. auto. Qed.
Lemma rn_some c x0 legs t n prev : running c x0 legs t n prev -> legs <> [].
Proof. intros [[] _]. auto. Qed.
Lemma rn_moves c x0 legs t n prev : running c x0 legs t n prev -> Forall (leg_moves r) legs.
Proof. intros [[] _]. auto. Qed.
Lemma rn_pos c x0 legs t n prev : running c x0 legs t n prev -> length (c_pos c) = 3%nat.
Proof. intros [[] _]. auto. Qed.
Lemma rn_close c x0 legs t n prev : running c x0 legs t n prev ->
  forall i, (i < 3)%nat -> Rabs (rm_k r i * now x0 legs t i - pos_of c i) <= 55/100 + INR n * creep r w i.
Proof. intros [[] _]. auto. Qed.

Lemma creep_pos i : (i < 3)%nat -> 0 <= creep r w i.
Proof.
  intro Hi. destruct (rmach_pos M r MI i Hi) as (H1 & H2 & H3). unfold creep.
  apply Rmult_le_pos; [apply Rmult_le_pos; lra|apply Rmult_le_pos; lra].
Qed.

Lemma tick_st (c : ctrl xr) t : clock c w t -> (st_index (c_st c) + 1 < two32)%N ->
  clock (c_with_st (c_with_sig c (sg_next (c_sig c))) (st_next A (c_st c))) w (t + w) /\ st_index (st_next A (c_st c)) = (st_index (c_st c) + 1)%N.
Proof.
  intros (CW & o & CO & CT & CE) HI.
  assert (E : add32 (st_index (c_st c)) 1 = (st_index (c_st c) + 1)%N) by (unfold add32; apply w32_small; auto).
  split; [|exact E]. unfold clock, st_next. rewrite E. cbn [c_with_st c_st st_width st_offset st_index st_time].
  split; auto. exists o. split; auto. rewrite CW, CO. split.
  - rewrite CT, N2Z.inj_add, plus_IZR. cbn. lra.
  - cbn [nadd nmul nofZ aF A x_num xmul xadd]. f_equal. rewrite CT, N2Z.inj_add, plus_IZR. cbn. lra.
Qed.

Lemma queue_head b (c : ctrl xr) l legs : wfq c -> queued b (queue A c) (l :: legs) -> runs b (c_getHead A c) l.
Proof.
  intros WF F2.
  assert (LV : c_level c = N.of_nat (length (l :: legs))).
  { pose proof (queued_length _ _ _ F2) as K. unfold queue in K. rewrite contents_length in K. lia. }
  destruct (queue_pop c WF) as (Q1 & _). { rewrite LV. cbn [length]. lia. }
  rewrite Q1 in F2. inversion F2; auto.
Qed.

Lemma zdir_inj a b : zdir a = zdir b -> a = b.
Proof. destruct a as [[]|], b as [[]|]; cbn; auto; discriminate. Qed.

Hypothesis RATE : forall i, (i < 3)%nat -> tick_rate r w i + INR N * creep r w i <= 1.

(** Counters close to the place [now], and when the last command was given. *)
Definition close (c : ctrl xr) (X : nat -> R) (n : nat) : Prop :=
  forall i, (i < 3)%nat -> Rabs (rm_k r i * X i - pos_of c i) <= 55/100 + INR n * creep r w i.
Definition last_cmd (c : ctrl xr) (X : nat -> R) (prev : nat -> option dir) : Prop :=
  forall i d, (i < 3)%nat -> prev i = Some d -> calm i ->
    exists p, nth i (c_pos c) 0%Z = (p + zdir (Some d))%Z /\ dec p (rm_k r i * X i) = Some d /\
      IZR (zdir (Some d)) * (rm_k r i * X i - pos_of c i) < 45/100.

(** Following the path for one tick. *)
Lemma move_close (c c2 : ctrl xr) X n n' prev l t' : length (c_pos c) = 3%nat -> c_pos c2 = c_pos c -> clock c2 w t' ->
  carries (c_getHead A c2) l -> p_s x_num (mo_prof (c_getHead A c2)) (XF t') = XF (lg_s l t') ->
  let X' := fun i => path_pos (lg_path l) i (lg_s l t') in
  (forall i, (i < 3)%nat -> in_range (rm_k r i * X' i)) -> (n <= N)%nat ->
  (forall i, (i < 3)%nat -> Rabs (rm_k r i * X' i - rm_k r i * X i) <= tick_rate r w i) ->
  close c X n -> last_cmd c X prev ->
  (forall i, (i < 3)%nat -> (forall s s', path_pos (lg_path l) i s = path_pos (lg_path l) i s') -> Rabs (rm_k r i * X' i - pos_of c i) <= 55/100 + INR n' * creep r w i) ->
  exists c3, c_move A M c2 = Ok c3 /\ length (c_pos c3) = 3%nat /\
    forall cs, c_pos c3 = add_cmds (c_pos c) cs ->
      (forall i, (i < 3)%nat -> calm i -> prev i <> None -> nth i cs None = None) /\
      close c3 X' n' /\ last_cmd c3 X' (fun i => nth i cs None).
Proof.
  intros HL A2 CK CA PSE. cbv zeta. set (X' := fun i => path_pos (lg_path l) i (lg_s l t')). intros RG HN MV CL LC STILL.
  assert (NR : forall i, (i < 3)%nat -> INR n * creep r w i <= INR N * creep r w i).
  { intros i Hi. apply Rmult_le_compat_r; [apply creep_pos; auto|]. apply le_INR. lia. }
  assert (FAR : forall i, (i < 3)%nat -> Rabs (rm_k r i * X' i - pos_of c i) <= 155/100).
  { intros i Hi. specialize (MV i Hi). specialize (CL i Hi). specialize (RATE i Hi). specialize (NR i Hi).
    apply abs_iff in MV. apply abs_iff in CL. apply abs_iff. lra. }
  assert (PE : forall i, pos_of c2 i = pos_of c i) by (intro; unfold pos_of; rewrite A2; reflexivity).
  destruct (move_run c2 l t' CA) as (c3 & M1 & M2 & M3); auto.
  { rewrite A2. exact HL. }
  { intros i Hi. rewrite PE. apply FAR; auto. }
  exists c3. split; auto. split; auto. intros cs K3.
  assert (P3 : forall i, (i < 3)%nat -> nth i (c_pos c3) 0%Z = (nth i (c_pos c) 0 + zdir (nth i cs None))%Z).
  { intros i Hi. rewrite K3, add_cmds_nth by auto. reflexivity. }
  assert (CS : forall i, (i < 3)%nat -> nth i cs None = want (c_getHead A c2) (c_pos c) (lg_s l t') i l).
  { intros i Hi. apply zdir_inj. specialize (M3 i Hi). specialize (P3 i Hi). rewrite A2 in M3. lia. }
  split. { intros i Hi CM PV. destruct (prev i) as [d|] eqn:EP; [|congruence].
    rewrite CS by auto. unfold want. destruct (mo_isMoving A (c_getHead A c2) i); auto.
    destruct (LC i d Hi EP CM) as (p & Q1 & Q2 & Q3). rewrite Q1. apply (dec_spaced _ _ _ _ Q2).
    - unfold pos_of in Q3. rewrite Q1 in Q3. exact Q3.
    - eapply Rle_trans; [apply MV; auto|]. apply CM. }
  split.
  - intros i Hi. destruct (mo_isMoving A (c_getHead A c2) i) eqn:MO.
    + assert (Rabs (rm_k r i * X' i - pos_of c3 i) <= 55/100).
      { unfold pos_of. rewrite P3, CS by auto. unfold want. rewrite MO. apply dec_close. apply FAR; auto. }
      assert (0 <= INR n' * creep r w i); [|lra].
      apply Rmult_le_pos; [apply pos_INR|apply creep_pos; auto].
    + unfold pos_of. rewrite P3, CS by auto. unfold want. rewrite MO. cbn [zdir]. rewrite Z.add_0_r.
      apply (STILL i Hi). intros. apply (ca_still _ _ CA); auto.
  - intros i d Hi E CM. exists (nth i (c_pos c) 0%Z). rewrite P3, E by auto. split; auto.
    rewrite CS in E by auto. unfold want in E. destruct (mo_isMoving A (c_getHead A c2) i) eqn:MO; [|discriminate].
    split; auto. unfold pos_of. rewrite P3, CS by auto. unfold want. rewrite MO, E. rewrite plus_IZR.
    specialize (MV i Hi). specialize (CL i Hi). destruct CM as [CA1 CA2]. specialize (NR i Hi).
    unfold pos_of in *. apply abs_iff in MV. apply abs_iff in CL. destruct d; cbn [zdir]; lra.
Qed.

Lemma tick_live (c : ctrl xr) x0 legs t n prev x legs' t' : live c x0 legs t n prev -> (st_index (c_st c) + 1 < two32)%N ->
  (n + length legs <= N)%nat -> locate x0 legs (t + w) = (x, legs', t') ->
  exists c' cs, c_tick A M c = Ok c' /\ (length cs = 3%nat \/ cs = []) /\ c_sig c' = sg_cmds (sg_next (c_sig c)) 0 cs /\
    c_pos c' = add_cmds (c_pos c) cs /\
    (forall i, (i < 3)%nat -> calm i -> prev i <> None -> nth i cs None = None) /\
    match legs' with
    | [] => at_rest c' w fo /\ cs = [] /\
            (forall i, (i < 3)%nat -> Rabs (rm_k r i * x i - pos_of c' i) <= 55/100 + INR (n + length legs) * creep r w i) /\
            c_events c' = c_events c ++ repeat motionCompleted (length legs - 1) ++ [motionStopped; motionCompleted; allMotionsCompleted]
    | _ => live c' x legs' t' (n + (length legs - length legs')) (fun i => nth i cs None) /\
           c_events c' = c_events c ++ repeat motionCompleted (length legs - length legs') /\
           queue A c' = skipn (length legs - length legs') (queue A c)
    end.
Proof.
  intros RN HI HN LOC. pose proof RN as [R1 R2 R3 R4 R5 R6 (b & HB & R7) R8 R9 R10 R11 R12 R13 R14 R15].
  set (c1 := c_with_st (c_with_sig c (sg_next (c_sig c))) (st_next A (c_st c))).
  destruct (tick_st c t R3 HI) as [CK IX]. fold c1 in CK.
  assert (HD : exists l legs0, legs = l :: legs0) by (destruct legs; [congruence|eauto]). destruct HD as (l & legs0 & EL).
  assert (HRU : runs b (c_getHead A c) l) by (rewrite EL in R7; eapply queue_head; eauto). clear EL.
  assert (TK : c_tick A M c = c_advance A M (N.to_nat (c_level c1)) c1).
  { unfold c_tick. unfold c_isRunning. cbn [c_state c_with_sig]. rewrite R1.
    change (c_with_st (c_with_sig c (sg_next (c_sig c))) (st_next A (c_st (c_with_sig c (sg_next (c_sig c)))))) with c1.
    change (c_getHead A c1) with (c_getHead A c). unfold st_isBeyond. rewrite (ru_stop _ _ _ HRU).
    destruct CK as (_ & o & _ & _ & CE). rewrite CE. reflexivity. }
  assert (LV : c_level c1 = N.of_nat (length legs)).
  { change (c_level c1) with (c_level c). pose proof (queued_length _ _ _ R7) as K. unfold queue in K. rewrite contents_length in K. lia. }
  assert (IXW : IZR (Z.of_N (st_index (c_st c1))) * w <= t + w).
  { change (st_index (c_st c1)) with (st_index (st_next A (c_st c))). rewrite IX, N2Z.inj_add, plus_IZR. cbn [Z.of_N]. lra. }
  pose proof (advance_run legs (N.to_nat (c_level c1)) b c1 x0 (t + w) x legs' t' R6 ltac:(lia) R2 CK IXW ltac:(lra) ltac:(lra) R7 LOC) as ADV.
  pose proof (rmach_pos M r MI) as RP.
  pose proof (locate_near r RP legs x0 t w x legs' t' W R8 R9 R4 R5 LOC) as NEAR.
  destruct (locate_step r RP legs x0 t (t + w) x legs' t' R8 R9 R4 R5 ltac:(lra) LOC) as (C1 & F1 & T1 & H1 & DD).
  assert (LEN : (length legs' <= length legs)%nat) by (eapply locate_len; eauto).
  (* distance moved, in steps *)
  assert (MV : forall i, (i < 3)%nat -> Rabs (rm_k r i * now x legs' t' i - rm_k r i * now x0 legs t i) <= tick_rate r w i).
  { intros i Hi. destruct (NEAR i Hi) as [K _]. destruct (RP i Hi) as (_ & _ & KP).
    rewrite <- Rmult_minus_distr_l, Rabs_mult, (Rabs_right (rm_k r i)) by lra. unfold tick_rate. rewrite Rmult_assoc.
    apply Rmult_le_compat_l; lra. }
  assert (STILL : forall i, (i < 3)%nat ->
     (forall s s', match legs' with [] => True | l :: _ => path_pos (lg_path l) i s = path_pos (lg_path l) i s' end) ->
     Rabs (rm_k r i * now x legs' t' i - pos_of c i) <= 55/100 + INR (n + (length legs - length legs')) * creep r w i).
  { intros i Hi ST. destruct (NEAR i Hi) as [_ K]. destruct (K ST) as [[K1 K2]|[K1 K2]].
    - rewrite K1, Nat.sub_diag, Nat.add_0_r, <- K1, K2. apply R13; auto.
    - destruct (RP i Hi) as (_ & _ & KP). specialize (R13 i Hi).
      assert (Q : Rabs (rm_k r i * now x legs' t' i - rm_k r i * now x0 legs t i) <= creep r w i).
      { rewrite <- Rmult_minus_distr_l, Rabs_mult, (Rabs_right (rm_k r i)) by lra. unfold creep. rewrite Rmult_assoc.
        apply Rmult_le_compat_l; lra. }
      assert (INR (n + 1) * creep r w i <= INR (n + (length legs - length legs')) * creep r w i).
      { apply Rmult_le_compat_r; [apply creep_pos; auto|]. apply le_INR. lia. }
      rewrite plus_INR in H. cbn [INR] in H. apply abs_iff in Q. apply abs_iff in R13. apply abs_iff. lra. }
  destruct legs' as [|l' legs'].
  - destruct ADV as (c' & A1 & A2 & A3 & A4 & A5 & A6 & A7 & A8 & A9). rewrite A1 in TK.
    exists c', []. split; [exact TK|]. split; [auto|]. split. { rewrite A3. reflexivity. }
    split. { rewrite A2. symmetry. apply add_cmds_nil. exact R12. }
    split. { intros i _ _ _. destruct i; reflexivity. }
    split. { destruct A7 as (B1 & B2 & B3). constructor; auto.
      rewrite A8; exact R11. rewrite A2; exact R12. }
    split; auto. split.
    + intros i Hi. specialize (STILL i Hi ltac:(auto)). cbn [now length] in STILL. rewrite Nat.sub_0_r in STILL.
      unfold pos_of in *. rewrite A2. exact STILL.
    + exact A9.
  - destruct ADV as (c2 & A1 & A2 & A3 & A4 & A5 & A6 & A7 & (b2 & B2 & A8) & AQ & A9 & A10).
    pose proof (queue_head b2 c2 l' legs' A6 A8) as RU2.
    assert (RG : Forall (fun l => ranged r (lg_path l)) (l' :: legs')).
    { clear - LOC R10. revert x0 LOC R10. generalize (t + w). induction legs as [|a rest IH]; intros u x0 E F; cbn [locate] in E; [discriminate|].
      destruct (Rle_dec u (lg_T a)); [inversion E; subst; auto|]. inversion F; subst. eapply IH; eauto. }
    cbn [head_T] in H1. inversion F1 as [|? ? LM F1']; subst. inversion RG as [|? ? RG0 RG1]; subst.
    assert (SB : 0 <= lg_s l' t' <= pa_len (lg_path l')).
    { rewrite <- (lm_s0 _ _ LM) at 1. rewrite <- (lm_sT _ _ LM). split; apply (lm_mono _ _ LM); lra. }
    destruct (move_close c c2 (now x0 legs t) n (n + (length legs - length (l' :: legs'))) prev l' t' R12 A2 A4 (runs_carries _ _ _ RU2)
      (ru_s _ _ _ RU2 t' ltac:(lra))) as (c3 & M1 & M2 & M3); auto; [lia|].
    rewrite A1, M1 in TK. destruct (tick_cmds A M c c3 R12 TK) as (cs & K1 & K2 & K3).
    destruct (move_frame M c2 c3 M1) as (G1 & G2 & G3 & G4 & G5 & G6). destruct (M3 cs K3) as (Z1 & Z2 & Z3).
    exists c3, cs. split; auto. split; auto. split; auto. split; auto. split; auto.
    assert (QE : queue A c3 = queue A c2) by (unfold queue; rewrite G1, G2, G3; auto).
    split. 2:{ split. - rewrite G6, A10. reflexivity. - rewrite QE, AQ. reflexivity. }
    constructor; auto.
    + rewrite G5, A5. exact R1.
    + destruct A6 as (B1 & B3 & B4). unfold wfq. rewrite G1, G2, G3. auto.
    + unfold clock. rewrite G4. exact A4.
    + congruence.
    + exists b2. split; auto. rewrite QE. exact A8.
    + assert (c_fo c3 = c_fo c2) as ->; [|rewrite A7; exact R11].
      destruct (move_ok A M c2 c3) as (? & _ & _ & _ & ->); auto. rewrite A2; exact R12.
    + rewrite G4. exact A9.
Qed.

Lemma tick_running (c : ctrl xr) x0 legs t n prev x legs' t' : running c x0 legs t n prev ->
  (n + length legs <= N)%nat -> locate x0 legs (t + w) = (x, legs', t') ->
  exists c' cs, c_tick A M c = Ok c' /\ (length cs = 3%nat \/ cs = []) /\ c_sig c' = sg_cmds (sg_next (c_sig c)) 0 cs /\
    c_pos c' = add_cmds (c_pos c) cs /\
    (forall i, (i < 3)%nat -> calm i -> prev i <> None -> nth i cs None = None) /\
    match legs' with
    | [] => at_rest c' w fo /\ cs = [] /\
            (forall i, (i < 3)%nat -> Rabs (rm_k r i * x i - pos_of c' i) <= 55/100 + INR (n + length legs) * creep r w i) /\
            c_events c' = c_events c ++ repeat motionCompleted (length legs - 1) ++ [motionStopped; motionCompleted; allMotionsCompleted]
    | _ => running c' x legs' t' (n + (length legs - length legs')) (fun i => nth i cs None) /\
           c_events c' = c_events c ++ repeat motionCompleted (length legs - length legs')
    end.
Proof.
  intros [RN R16] HN LOC. pose proof RN as [_ _ _ _ R5 R6 _ _ _ _ _ _ _ _ R15].
  assert (HI : (st_index (c_st c) + 1 < two32)%N).
  { destruct legs as [|l0 ls]; [congruence|]. inversion R16 as [|? ? S0 _]; subst. cbn [head_T] in R5. unfold short in S0.
    assert (K : IZR (Z.of_N (st_index (c_st c) + 1)) * w < IZR 4294967296 * w) by (rewrite N2Z.inj_add, plus_IZR; cbn [Z.of_N]; lra).
    apply Rmult_lt_reg_r in K; [|exact W]. apply lt_IZR in K. unfold two32. lia. }
  destruct (tick_live c x0 legs t n prev x legs' t' RN HI HN LOC) as (c' & cs & T1 & T2 & T3 & T4 & T5 & T6).
  exists c', cs. repeat (split; [assumption|]). destruct legs' as [|l' legs']; auto. destruct T6 as (L1 & L2 & _). split; auto. split; auto.
  clear - LOC R16. revert x0 LOC R16. generalize (t + w). induction legs as [|a rest IH]; intros u x0 E F; cbn [locate] in E; [discriminate|].
  destruct (Rle_dec u (lg_T a)); [inversion E; subst; auto|]. inversion F; subst. eapply IH; eauto.
Qed.
End Tick.
