(** Tracking over the reals: C18, C19, C20. *)
Require Import List Arith NArith ZArith Bool Reals Lra Lia.
From Verif Require Import Base BaseProofs StepModel StepSpec Num NumR MotionModel CtrlModel CtrlSpec CtrlProofs CtrlRSpec.
Import ListNotations.
Open Scope R_scope.

Lemma Int_part_spec x : IZR (Int_part x) <= x < IZR (Int_part x) + 1.
Proof. unfold Int_part. destruct (archimed x) as [H1 H2]. rewrite minus_IZR. lra. Qed.

Lemma Int_part_IZR z : Int_part (IZR z) = z.
Proof.
  destruct (Int_part_spec (IZR z)) as [H1 H2]. apply le_IZR in H1.
  rewrite <- plus_IZR in H2. apply lt_IZR in H2. lia.
Qed.

Lemma rhaz_near x : Rabs (x - IZR (rhaz x)) <= 1/2.
Proof.
  unfold rhaz. destruct (Rle_dec 0 x).
  - destruct (Int_part_spec (x + 1/2)). apply Rabs_le. lra.
  - rewrite opp_IZR. destruct (Int_part_spec (- x + 1/2)). apply Rabs_le. lra.
Qed.

Lemma rtrunc_IZR z : rtrunc (IZR z) = z.
Proof.
  unfold rtrunc. destruct (Rle_dec 0 (IZR z)); [apply Int_part_IZR|].
  rewrite <- opp_IZR, Int_part_IZR. lia.
Qed.

Lemma rltb_true a b : rltb a b = true <-> a < b.
Proof. unfold rltb. destruct (Rlt_dec a b); split; auto; discriminate. Qed.
Lemma rltb_false a b : rltb a b = false <-> b <= a.
Proof. unfold rltb. destruct (Rlt_dec a b); split; auto; intros; try discriminate; lra. Qed.

Lemma h005 : 10 ^ Pos.to_nat 2 = 100.
Proof. change (Pos.to_nat 2) with 2%nat. cbn [pow]. lra. Qed.

Section Track.
Variable M : machine xr.
Notation A := x_arith.

(** The decision, in steps. *)
Definition dec (p : Z) (x : R) : option dir :=
  if (p <? rhaz (x - 5/100))%Z then Some Fwd
  else if (rhaz (x + 5/100) <? p)%Z then Some Bwd else None.

Lemma nF_eq (c : ctrl xr) i x k : nthF A (m_stepsPerMm M) i = XF k -> k <> 0 -> in_range x ->
  needStepForward A M c i (XF (x / k)) = Ok (nth i (c_pos c) 0 <? rhaz (x - 5/100))%Z.
Proof.
  intros Hk K0 HR. unfold needStepForward. rewrite Hk. unfold hysteresis. cbn -[int32_ok rhaz rtrunc Z.ltb].
  rewrite h005. replace (x / k * k) with x by (field; auto).
  rewrite rtrunc_IZR.
  assert (int32_ok (rhaz (x - 5/100)) = true) as ->; [|reflexivity].
  pose proof (rhaz_near (x - 5/100)) as N. unfold in_range in HR.
  assert (- 2147483000 <= x <= 2147483000) by (revert HR; unfold Rabs; destruct (Rcase_abs x); lra).
  assert (- (1/2) <= x - 5/100 - IZR (rhaz (x - 5/100)) <= 1/2) by (revert N; unfold Rabs; destruct (Rcase_abs _); lra).
  unfold int32_ok. apply andb_true_intro. split; apply Z.leb_le; apply le_IZR; lra.
Qed.

Lemma nB_eq (c : ctrl xr) i x k : nthF A (m_stepsPerMm M) i = XF k -> k <> 0 ->
  needStepBackward A M c i (XF (x / k)) = (rhaz (x + 5/100) <? nth i (c_pos c) 0)%Z.
Proof.
  intros Hk K0. unfold needStepBackward. rewrite Hk. unfold hysteresis. cbn -[int32_ok rhaz rtrunc Z.ltb].
  rewrite h005. replace (x / k * k) with x by (field; auto).
  destruct (Z.ltb_spec (rhaz (x + 5/100)) (nth i (c_pos c) 0)%Z) as [H|H].
  - apply rltb_true. apply IZR_lt. auto.
  - apply rltb_false. apply IZR_le. auto.
Qed.

Lemma decide_eq (c : ctrl xr) i x k : nthF A (m_stepsPerMm M) i = XF k -> k <> 0 -> in_range x ->
  c_decide A M c i (XF (x / k)) = Ok (dec (nth i (c_pos c) 0%Z) x).
Proof.
  intros. unfold c_decide. rewrite (nF_eq c i x k) by auto. cbn [rbind].
  rewrite (nB_eq c i x k) by auto. reflexivity.
Qed.

Lemma abs_iff a b : Rabs a <= b <-> - b <= a <= b.
Proof. unfold Rabs. destruct (Rcase_abs a); split; intros; lra. Qed.
Lemma abs_lt_iff a b : Rabs a < b <-> - b < a < b.
Proof. unfold Rabs. destruct (Rcase_abs a); split; intros; lra. Qed.

(** The decision by thresholds. *)
Lemma dec_fwd p x : dec p x = Some Fwd -> IZR p + 55/100 <= x.
Proof.
  unfold dec. destruct (Z.ltb_spec p (rhaz (x - 5/100))).
  - intros _. pose proof (rhaz_near (x - 5/100)) as N. apply abs_iff in N.
    assert (IZR (p + 1) <= IZR (rhaz (x - 5/100))) by (apply IZR_le; lia). rewrite plus_IZR in *. lra.
  - destruct (_ <? _)%Z; discriminate.
Qed.
Lemma dec_bwd p x : dec p x = Some Bwd -> x <= IZR p - 55/100.
Proof.
  unfold dec. destruct (Z.ltb_spec p (rhaz (x - 5/100))); [discriminate|].
  destruct (Z.ltb_spec (rhaz (x + 5/100)) p); [|discriminate]. intros _.
  pose proof (rhaz_near (x + 5/100)) as N. apply abs_iff in N.
  assert (IZR (rhaz (x + 5/100) + 1) <= IZR p) by (apply IZR_le; lia). rewrite plus_IZR in *. lra.
Qed.
Lemma dec_none p x : dec p x = None -> Rabs (x - IZR p) <= 55/100.
Proof.
  unfold dec. destruct (Z.ltb_spec p (rhaz (x - 5/100))) as [|H1]; [discriminate|].
  destruct (Z.ltb_spec (rhaz (x + 5/100)) p) as [|H2]; [discriminate|]. intros _.
  pose proof (rhaz_near (x + 5/100)) as N1. apply abs_iff in N1.
  pose proof (rhaz_near (x - 5/100)) as N2. apply abs_iff in N2.
  apply IZR_le in H1. apply IZR_le in H2. apply abs_iff. lra.
Qed.

Lemma dec_sound p x0 x : Rabs (x0 - IZR p) <= 55/100 -> Rabs (x - x0) <= 1 ->
  Rabs (x - IZR (p + zdir (dec p x))) <= 55/100.
Proof.
  intros H0 H1. apply abs_iff in H0. apply abs_iff in H1. rewrite plus_IZR. apply abs_iff.
  destruct (dec p x) as [[]|] eqn:E; cbn [zdir].
  - apply dec_fwd in E. lra.
  - apply dec_bwd in E. lra.
  - apply dec_none in E. apply abs_iff in E. lra.
Qed.

Lemma trackAxis_ok (c : ctrl xr) i x k : nthF A (m_stepsPerMm M) i = XF k -> k <> 0 -> in_range x ->
  length (c_pos c) = 3%nat -> (i < 3)%nat -> int32_ok (nth i (c_pos c) 0 + zdir (dec (nth i (c_pos c) 0%Z) x))%Z = true ->
  exists c', c_trackAxis A M c i (XF (x / k)) = Ok c' /\ length (c_pos c') = 3%nat /\
   nth i (c_pos c') 0%Z = (nth i (c_pos c) 0 + zdir (dec (nth i (c_pos c) 0%Z) x))%Z.
Proof.
  intros Hk K0 HR HL Hi OK. unfold c_trackAxis. rewrite (decide_eq c i x k) by auto. cbn [rbind].
  destruct (dec (nth i (c_pos c) 0%Z) x) as [d|] eqn:E.
  - unfold c_stepAxis. destruct d; cbn [zdir] in OK; rewrite OK; eexists; (split; [reflexivity|]);
    cbn [c_with_pos c_pos c_with_sig]; rewrite upd_length; split; auto; rewrite nth_upd_eq by lia; reflexivity.
  - exists c. cbn [zdir]. repeat split; auto. lia.
Qed.

Lemma int32_near x p : in_range x -> Rabs (x - IZR p) <= 2 -> int32_ok p = true.
Proof.
  unfold in_range. intros H1 H2. apply abs_iff in H1. apply abs_iff in H2.
  unfold int32_ok. apply andb_true_intro. split; apply Z.leb_le; apply le_IZR; lra.
Qed.

Lemma track_lemma k i : nthF A (m_stepsPerMm M) i = XF k -> k <> 0 -> (i < 3)%nat ->
  forall xs x0 (c : ctrl xr), length (c_pos c) = 3%nat -> Rabs (x0 - pos_of c i) <= 55/100 ->
  rate_le 1 x0 xs -> Forall in_range xs ->
  exists c' cmds, track A M c i (to_mm k xs) = Ok (c', cmds) /\
    Rabs (last xs x0 - pos_of c' i) <= 55/100 /\ length (c_pos c') = 3%nat.
Proof.
  intros Hk K0 Hi. induction xs as [|x r IH]; intros x0 c HL H0 HR HF.
  - exists c, []. cbn. auto.
  - destruct HR as [HR1 HR2]. inversion HF; subst.
    unfold pos_of in *. pose proof (dec_sound _ _ _ H0 HR1) as DS.
    destruct (trackAxis_ok c i x k) as (c1 & E1 & L1 & P1); auto.
    { eapply int32_near; eauto. lra. }
    destruct (IH x c1 L1) as (c2 & l & E2 & B2 & L2); auto. { rewrite P1. auto. }
    cbn [to_mm map track]. rewrite (decide_eq c i x k), E1 by auto. cbn [rbind].
    fold (to_mm k r). rewrite E2. cbn [rbind]. eexists _, _. split; [reflexivity|].
    split; auto. destruct r as [|y r]; auto.
    change (last (x :: y :: r) x0) with (last (y :: r) x0).
    replace (last (y :: r) x0) with (last (y :: r) x); auto.
    clear. revert y. induction r as [|z r IHr]; intro y; [reflexivity|]. exact (IHr z).
Qed.

(** Abstract run on the step counter alone. *)
Fixpoint decs (p : Z) (xs : list R) : list (option dir) :=
  match xs with [] => [] | x :: r => dec p x :: decs (p + zdir (dec p x)) r end.

Lemma track_decs k i : nthF A (m_stepsPerMm M) i = XF k -> k <> 0 -> (i < 3)%nat ->
  forall xs (c c' : ctrl xr) cmds, length (c_pos c) = 3%nat -> Forall in_range xs ->
  track A M c i (to_mm k xs) = Ok (c', cmds) -> cmds = decs (nth i (c_pos c) 0%Z) xs.
Proof.
  intros Hk K0 Hi. induction xs as [|x r IH]; intros c c' cmds HL HF H; cbn [to_mm map track] in H.
  - inversion H; auto.
  - inversion HF; subst. rewrite (decide_eq c i x k) in H by auto. cbn [rbind] in H.
    destruct (c_trackAxis A M c i (XF (x / k))) as [c1|] eqn:E1; [|discriminate]. cbn [rbind] in H.
    fold (to_mm k r) in H. destruct (track A M c1 i (to_mm k r)) as [[c2 l]|] eqn:E2; [|discriminate].
    cbn [rbind] in H. inversion H; subst. cbn [decs]. f_equal.
    unfold c_trackAxis in E1. rewrite (decide_eq c i x k) in E1 by auto. cbn [rbind] in E1.
    destruct (dec (nth i (c_pos c) 0%Z) x) as [d|] eqn:ED.
    + apply stepAxis_ok in E1. destruct E1 as (_ & P & _).
      assert (L1 : length (c_pos c1) = 3%nat) by (rewrite P, upd_length; auto).
      rewrite (IH _ _ _ L1 H3 E2). rewrite P, nth_upd_eq by lia. reflexivity.
    + inversion E1; subst. rewrite (IH _ _ _ HL H3 E2). cbn [zdir]. rewrite Z.add_0_r. reflexivity.
Qed.

(** C19 *)
Lemma exclusive_lemma (c : ctrl xr) i mm : needStepForward A M c i mm = Ok true -> needStepBackward A M c i mm = false.
Proof.
  unfold needStepForward, needStepBackward, hysteresis. cbn -[int32_ok rhaz rtrunc Z.ltb].
  rewrite h005. set (y := xmul mm (nthF A (m_stepsPerMm M) i)). destruct y as [y| | |]; cbn -[int32_ok rhaz rtrunc Z.ltb]; try discriminate.
  rewrite rtrunc_IZR. destruct (int32_ok _); [|discriminate]. intro H. inversion H as [H1]. clear H.
  apply Z.ltb_lt in H1. apply rltb_false.
  pose proof (rhaz_near (y - 5 / 100)) as N1. apply abs_iff in N1.
  pose proof (rhaz_near (y + 5 / 100)) as N2. apply abs_iff in N2.
  set (p := nth i (c_pos c) 0%Z) in *. set (u := rhaz (y - 5 / 100)) in *.
  set (v := rhaz (y + 5 / 100)) in *.
  assert (IZR (p + 1) <= IZR u) by (apply IZR_le; lia). rewrite plus_IZR in *.
  assert (IZR p - 1 < IZR v) by lra. rewrite <- minus_IZR in H0. apply lt_IZR in H0. apply IZR_le. lia.
Qed.

(** All values within a window of less than 0.1 step. *)
Lemma one_direction lo : forall xs p, (forall x, In x xs -> lo <= x < lo + 1/10) ->
  (In (Some Fwd) (decs p xs) -> ~ In (Some Bwd) (decs p xs)).
Proof.
  (* after a forward step no backward one, and conversely *)
  assert (G1 : forall xs p, (forall x, In x xs -> lo <= x < lo + 1/10) -> IZR p - 45/100 < lo + 1/10 -> ~ In (Some Bwd) (decs p xs)).
  { induction xs as [|x r IH]; intros p H HP I; cbn [decs] in I; [contradiction|].
    assert (Hx : lo <= x < lo + 1/10) by (apply H; left; auto).
    destruct I as [I|I].
    - apply dec_bwd in I. lra.
    - revert I. apply IH. { intros; apply H; right; auto. }
      rewrite plus_IZR. destruct (dec p x) as [[]|] eqn:E; cbn [zdir].
      + apply dec_fwd in E. lra. + apply dec_bwd in E. lra. + lra. }
  assert (G2 : forall xs p, (forall x, In x xs -> lo <= x < lo + 1/10) -> lo <= IZR p + 45/100 -> ~ In (Some Fwd) (decs p xs)).
  { induction xs as [|x r IH]; intros p H HP I; cbn [decs] in I; [contradiction|].
    assert (Hx : lo <= x < lo + 1/10) by (apply H; left; auto).
    destruct I as [I|I].
    - apply dec_fwd in I. lra.
    - revert I. apply IH. { intros; apply H; right; auto. }
      rewrite plus_IZR. destruct (dec p x) as [[]|] eqn:E; cbn [zdir].
      + apply dec_fwd in E. lra. + apply dec_bwd in E. lra. + lra. }
  induction xs as [|x r IH]; intros p H I J; [contradiction|].
  assert (Hx : lo <= x < lo + 1/10) by (apply H; left; auto).
  assert (Hr : forall y, In y r -> lo <= y < lo + 1/10) by (intros; apply H; right; auto).
  cbn [decs] in I, J. destruct (dec p x) as [[]|] eqn:E; cbn [zdir] in *.
  - destruct J as [J|J]; [discriminate|]. revert J. apply G1; auto. apply dec_fwd in E. rewrite plus_IZR. lra.
  - destruct I as [I|I]; [discriminate|]. revert I. apply G2; auto. apply dec_bwd in E. rewrite plus_IZR. lra.
  - destruct I as [I|I]; [discriminate|]. destruct J as [J|J]; [discriminate|].
    revert J. apply (IH (p + 0)%Z); auto.
Qed.

Lemma at_most_one lo : forall xs p x0, (forall x, In x (x0 :: xs) -> lo <= x < lo + 1/10) ->
  Rabs (x0 - IZR p) <= 55/100 -> (length (commanded (decs p xs)) <= 1)%nat.
Proof.
  assert (Z0 : forall xs p, (forall x, In x xs -> lo <= x < lo + 1/10) ->
     lo + 1/10 <= IZR p + 55/100 -> IZR p - 55/100 < lo -> commanded (decs p xs) = []).
  { induction xs as [|x r IH]; intros p H H1 H2; auto. cbn [decs].
    assert (Hx : lo <= x < lo + 1/10) by (apply H; left; auto).
    assert (Hr : forall y, In y r -> lo <= y < lo + 1/10) by (intros; apply H; right; auto).
    destruct (dec p x) as [[]|] eqn:E.
    - apply dec_fwd in E. lra. - apply dec_bwd in E. lra.
    - cbn [zdir commanded flat_map app]. apply IH; auto; rewrite plus_IZR; lra. }
  induction xs as [|x r IH]; intros p x0 H H0; [cbn; lia|]. cbn [decs].
  assert (Hx0 : lo <= x0 < lo + 1/10) by (apply H; left; auto).
  assert (Hx : lo <= x < lo + 1/10) by (apply H; right; left; auto).
  assert (Hr : forall y, In y r -> lo <= y < lo + 1/10) by (intros; apply H; right; right; auto).
  apply abs_iff in H0.
  destruct (dec p x) as [[]|] eqn:E; cbn [zdir].
  - apply dec_fwd in E. change (commanded (Some Fwd :: ?l)) with (Fwd :: commanded l).
    cbn [commanded flat_map app]. fold (commanded (decs (p + 1) r)). rewrite Z0; auto; rewrite ?plus_IZR; lra.
  - apply dec_bwd in E. cbn [commanded flat_map app]. fold (commanded (decs (p + -1) r)).
    rewrite Z0; auto; rewrite ?plus_IZR; lra.
  - cbn [commanded flat_map app]. fold (commanded (decs (p + 0) r)). apply (IH (p + 0)%Z x); auto.
    { intros y [<-|I]; auto. } rewrite Z.add_0_r. now apply dec_none.
Qed.

(** C20 *)
Lemma spaced_decs : forall xs p x0, Rabs (x0 - IZR p) <= 55/100 -> rate_lt (1/2) x0 xs -> smooth (1/10) x0 xs ->
  spaced (decs p xs).
Proof.
  induction xs as [|x1 r IH]; intros p x0 H0 HR HS; [exact I|].
  destruct HR as [R1 R2]. 
  assert (H1 : Rabs (x1 - IZR (p + zdir (dec p x1))) <= 55/100).
  { apply (dec_sound p x0); auto. lra. }
  destruct r as [|x2 r]; [exact I|]. destruct HS as [S1 S2]. destruct R2 as [R2 R3].
  specialize (IH _ x1 H1 (conj R2 R3) S2).
  change (decs p (x1 :: x2 :: r)) with (dec p x1 :: decs (p + zdir (dec p x1)) (x2 :: r)).
  change (decs (p + zdir (dec p x1)) (x2 :: r)) with (dec (p + zdir (dec p x1)) x2 :: decs ((p + zdir (dec p x1)) + zdir (dec (p + zdir (dec p x1)) x2)) r) in *.
  split; [|exact IH]. clear IH. intros [C1 C2].
  apply abs_iff in H0. apply abs_lt_iff in R1. apply abs_lt_iff in R2. apply abs_lt_iff in S1.
  destruct (dec p x1) as [[]|] eqn:E1; [| |discriminate]; cbn [zdir] in *.
  - apply dec_fwd in E1. destruct (dec (p + 1) x2) as [[]|] eqn:E2; [| |discriminate].
    + apply dec_fwd in E2. rewrite plus_IZR in E2. lra.
    + apply dec_bwd in E2. rewrite plus_IZR in E2. lra.
  - apply dec_bwd in E1. destruct (dec (p + -1) x2) as [[]|] eqn:E2; [| |discriminate].
    + apply dec_fwd in E2. rewrite plus_IZR in E2. lra.
    + apply dec_bwd in E2. rewrite plus_IZR in E2. lra.
Qed.

Lemma one_direction_track k i lo (c c' : ctrl xr) xs cmds : nthF A (m_stepsPerMm M) i = XF k -> k <> 0 -> (i < 3)%nat ->
  length (c_pos c) = 3%nat -> Forall in_range xs -> (forall x, In x xs -> lo <= x < lo + 1/10) ->
  track A M c i (to_mm k xs) = Ok (c', cmds) -> ~ (In (Some Fwd) cmds /\ In (Some Bwd) cmds).
Proof.
  intros Hk K0 Hi HL HF HW H [I1 I2]. rewrite (track_decs k i Hk K0 Hi xs c c' cmds HL HF H) in *.
  exact (one_direction lo xs _ HW I1 I2).
Qed.

Lemma at_most_one_track k i lo (c c' : ctrl xr) x0 xs cmds : nthF A (m_stepsPerMm M) i = XF k -> k <> 0 -> (i < 3)%nat ->
  length (c_pos c) = 3%nat -> Forall in_range xs -> (forall x, In x (x0 :: xs) -> lo <= x < lo + 1/10) ->
  Rabs (x0 - pos_of c i) <= 55/100 ->
  track A M c i (to_mm k xs) = Ok (c', cmds) -> (length (commanded cmds) <= 1)%nat.
Proof.
  intros Hk K0 Hi HL HF HW HP H. rewrite (track_decs k i Hk K0 Hi xs c c' cmds HL HF H).
  exact (at_most_one lo xs _ x0 HW HP).
Qed.

Lemma spaced_track k i (c c' : ctrl xr) x0 xs cmds : nthF A (m_stepsPerMm M) i = XF k -> k <> 0 -> (i < 3)%nat ->
  length (c_pos c) = 3%nat -> Forall in_range xs -> Rabs (x0 - pos_of c i) <= 55/100 ->
  rate_lt (1/2) x0 xs -> smooth (1/10) x0 xs ->
  track A M c i (to_mm k xs) = Ok (c', cmds) -> spaced cmds.
Proof.
  intros Hk K0 Hi HL HF HP HR HS H. rewrite (track_decs k i Hk K0 Hi xs c c' cmds HL HF H).
  exact (spaced_decs xs _ x0 HP HR HS).
Qed.

Lemma dec_fwd_if p x : IZR p + 55/100 < x -> dec p x = Some Fwd.
Proof.
  intro H. destruct (dec p x) as [[]|] eqn:E; auto; exfalso.
  - apply dec_bwd in E. lra. - apply dec_none in E. apply abs_iff in E. lra.
Qed.
Lemma dec_bwd_if p x : x < IZR p - 55/100 -> dec p x = Some Bwd.
Proof.
  intro H. destruct (dec p x) as [[]|] eqn:E; auto; exfalso.
  - apply dec_fwd in E. lra. - apply dec_none in E. apply abs_iff in E. lra.
Qed.

Lemma spacing_refuted k i (c : ctrl xr) : nthF A (m_stepsPerMm M) i = XF k -> k <> 0 -> (i < 3)%nat ->
  length (c_pos c) = 3%nat -> nth i (c_pos c) 0%Z = 0%Z ->
  exists x0 xs c', Rabs (x0 - pos_of c i) <= 55/100 /\ Forall in_range xs /\ rate_lt (1/2) x0 xs /\
    track A M c i (to_mm k xs) = Ok (c', [Some Fwd; Some Bwd]).
Proof.
  intros Hk K0 Hi HL HP. exists (5/10), [56/100; 10/100].
  assert (HF : Forall in_range [56/100; 10/100]).
  { constructor; [|constructor; [|constructor]]; unfold in_range; apply Rabs_le; lra. }
  assert (H0 : Rabs (5/10 - pos_of c i) <= 55/100) by (unfold pos_of; rewrite HP; apply abs_iff; lra).
  destruct (track_lemma k i Hk K0 Hi [56/100; 10/100] (5/10) c HL H0) as (c' & cmds & T & _); auto.
  { cbn [rate_le]. repeat split; apply Rabs_le; lra. }
  exists c'. split; auto. split; auto. split. { cbn [rate_lt]. repeat split; apply Rabs_def1; lra. }
  rewrite T. do 2 f_equal. rewrite (track_decs k i Hk K0 Hi _ c c' cmds HL HF T), HP. cbn [decs].
  rewrite dec_fwd_if by lra. cbn [zdir Z.add]. rewrite dec_bwd_if by lra. reflexivity.
Qed.
End Track.
