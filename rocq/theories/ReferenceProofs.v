(** The controller reads a program as the reference interpreter does. *)
Require Import List Arith NArith ZArith Bool Reals Lra Lia.
From Verif Require Import Base EventModel StepModel StepSpec Num NumR MotionModel CtrlModel CtrlSpec CtrlRSpec ProfileSpec GeomSpec GeomProofs RunSpec
  GcodeModel GcodeSpec GcodeRSpec GText GBlockProofs GParseProofs GHeadProofs GStageProofs GMeaningProofs GArcProofs GPathProofs GTotalProofs GLineProofs
  ProgramSpec ProgramProofs ReferenceSpec.
Import ListNotations.
Open Scope R_scope.
Notation word := (@word xr).

(** *** Words *)
Definition same_word (w : rword) (x : word) : Prop :=
  w_letter x = fst w /\ w_number x = XF (snd w) /\ forall z, (fst w = aG \/ fst w = aM) -> snd w = IZR z -> w_int x = Z.to_N (10 * z).
Definition codes : list (N * Z) := flat_map (fun s => map (pair (fst s)) (snd s)) code_sets.

Lemma code_small l z : In (l, z) codes -> (0 <= z < 100)%Z /\ (l = aG \/ l = aM).
Proof. intros I. cbn in I. repeat (destruct I as [I|I]; [injection I as <- <-; split; [lia|auto]|]). destruct I. Qed.
Lemma in_codes s z : In s code_sets -> In z (snd s) -> In (fst s, z) codes.
Proof. intros I J. unfold codes. apply in_flat_map. exists s. split; [exact I|]. now apply in_map. Qed.
Lemma letters_not l : In l letters -> l <> aG /\ l <> aM.
Proof. intros I. cbn in I. repeat (destruct I as [<-|I]; [split; discriminate|]). destruct I. Qed.
Lemma known_cases w : known w -> (In (fst w) letters /\ fst w <> aG /\ fst w <> aM) \/ exists z, In (fst w, z) codes /\ snd w = IZR z.
Proof.
  intros [I|(s & I & E & z & J & V)]; [left; split; [exact I|]; now apply letters_not|].
  right. exists z. rewrite E. split; [now apply in_codes|exact V].
Qed.

Lemma written_words l ws : written l ws -> Forall known ws -> exists xs, line_words x_num l xs /\ Forall2 same_word ws xs.
Proof.
  intros (ts & ST & TW & L & LT & F) KN.
  assert (X : exists xs, Forall2 real_word ts xs /\ Forall2 same_word ws xs).
  { clear - F KN. induction F as [|t w ts ws (E & neg & ip & fp & DE & V) F IH]; [exists []; split; constructor|].
    inversion KN as [|? ? KW KN']; subst. destruct (IH KN') as (xs & A & B).
    assert (NR : number_of x_num (snd t) = XF (snd w)) by (rewrite V; now apply number_real).
    destruct (known_cases _ KW) as [(_ & NG & NM)|(z & IZ & VZ)].
    - exists (mkW (fst t) (XF (snd w)) 0 :: xs). split; constructor; auto.
      + split; [reflexivity|]. split; [cbn [w_number]; exact NR|]. cbn [w_int w_number]. rewrite E. unfold int_of.
        replace ((fst w =? cG) || (fst w =? cM))%N with false; [reflexivity|]. symmetry. apply orb_false_iff. split; apply N.eqb_neq; assumption.
      + split; [exact E|]. split; [reflexivity|]. intros z [X|X]; contradiction.
    - destruct (code_small _ _ IZ) as (ZB & LB).
      exists (mkW (fst t) (XF (snd w)) (Z.to_N (10 * z)) :: xs). split; constructor; auto.
      + split; [reflexivity|]. split; [cbn [w_number]; exact NR|]. cbn [w_int w_number]. rewrite E. apply code_int; [exact LB| |lia].
        rewrite VZ, mult_IZR. ring.
      + split; [exact E|]. split; [reflexivity|]. intros z' _ V'. cbn [w_int]. rewrite VZ in V'. apply eq_IZR in V'. now subst. }
  destruct X as (xs & A & B). exists xs. split; [|exact B].
  destruct (read_words ts xs TW L LT A) as (b & E & EW). exists b. split; [|exact EW]. rewrite (same_block x_num _ _ ST). exact E.
Qed.

Section W.
Variables (ws : list rword) (xs : list word).
Hypothesis SW : Forall2 same_word ws xs.
Hypothesis KN : Forall known ws.

Lemma there l v : In (l, v) ws -> exists x, In x xs /\ same_word (l, v) x.
Proof.
  clear KN. revert SW. generalize xs. induction ws as [|w ws0 IH]; intros ys F I; [destruct I|].
  inversion F as [|? y ? ys' A B]; subst. destruct I as [->|I]; [exists y; split; [now left|exact A]|].
  destruct (IH ys' B I) as (x & J & E). exists x. split; [now right|exact E].
Qed.
Lemma back x : In x xs -> exists w, In w ws /\ same_word w x.
Proof.
  clear KN. revert SW. generalize xs. induction ws as [|w ws0 IH]; intros ys F I; inversion F as [|? y ? ys' A B]; subst; [destruct I|].
  destruct I as [->|I]; [exists w; split; [now left|exact A]|]. destruct (IH ys' B I) as (w' & J & E). exists w'. split; [now right|exact E].
Qed.
Lemma value_iff l v : has_value xs l (XF v) <-> In (l, v) ws.
Proof.
  split.
  - intros (x & I & E1 & E2). destruct (back x I) as ([l' v'] & J & A & B & _). cbn [fst snd] in *. rewrite E2 in B. injection B as ->. replace l with l' by congruence. exact J.
  - intros I. destruct (there l v I) as (x & J & A & B & _). exists x. auto.
Qed.
Lemma value_real l x : has_value xs l x -> exists v, x = XF v.
Proof. intros (y & I & _ & <-). destruct (back y I) as (w & _ & _ & B & _). eauto. Qed.
Lemma letter_iff l : has_letter xs l <-> exists v, In (l, v) ws.
Proof.
  split.
  - intros (x & I & E). destruct (back x I) as ([l' v'] & J & A & _). cbn [fst] in A. exists v'. replace l with l' by congruence. exact J.
  - intros (v & I). destruct (there l v I) as (x & J & A & _). exists x. auto.
Qed.
Lemma silent_iff l : silent ws l <-> ~ has_letter xs l.
Proof. rewrite letter_iff. unfold silent. split; [intros H (v & I); exact (H v I)|intros H v I; apply H; eauto]. Qed.
(** The codes of a known block. *)
Lemma code_back l n : l = cG \/ l = cM -> has xs l n -> exists z, In (l, z) codes /\ In (l, IZR z) ws /\ n = Z.to_N (10 * z).
Proof.
  intros HL (x & I & E1 & E2). destruct (back x I) as ([l' v'] & J & A & B & C). cbn [fst snd] in *.
  assert (l' = l) by congruence. clear A. subst l'. rewrite Forall_forall in KN. destruct (known_cases _ (KN _ J)) as [(_ & NG & NM)|(z & IZ & V)]; cbn [fst snd] in *.
  - exfalso. destruct HL as [X|X]; [exact (NG X)|exact (NM X)].
  - subst v'. exists z. split; [exact IZ|]. split; [exact J|]. rewrite <- E2. apply C; auto.
Qed.
Lemma code_iff l z : l = cG \/ l = cM -> (0 <= z)%Z -> has xs l (Z.to_N (10 * z)) <-> In (l, IZR z) ws.
Proof.
  intros HL Z0. split.
  - intros H. destruct (code_back _ _ HL H) as (z' & IZ & I & E). destruct (code_small _ _ IZ) as (ZB & _).
    apply Z2N.inj in E; [|lia|lia]. replace z with z' by lia. exact I.
  - intros I. destruct (there _ _ I) as (x & J & A & _ & C). exists x. split; [exact J|]. split; [exact A|]. apply C; auto.
Qed.
Lemma no_code l n : l = cG \/ l = cM -> (forall z, In (l, z) codes -> n <> Z.to_N (10 * z)) -> ~ has xs l n.
Proof. intros HL N H. destruct (code_back _ _ HL H) as (z & IZ & _ & E). exact (N z IZ E). Qed.
End W.

Lemma two_back (P : word -> Prop) : forall ws xs, Forall2 same_word ws xs -> two_of P xs -> forall Q : rword -> rword -> Prop, ForallOrdPairs Q ws ->
  exists w1 w2 x1 x2, In w1 ws /\ In w2 ws /\ same_word w1 x1 /\ same_word w2 x2 /\ P x1 /\ P x2 /\ Q w1 w2.
Proof.
  intros ws xs F (a & x & b & y & c & -> & PX & PY) Q O. apply Forall2_app_inv_r in F. destruct F as (wa & wr & _ & F & ->).
  inversion F as [|w1 ? wr' ? S1 F']; subst. apply Forall2_app_inv_r in F'. destruct F' as (wb & wc & _ & F' & ->). inversion F' as [|w2 ? wc' ? S2 _]; subst.
  exists w1, w2, x, y. split; [apply in_or_app; right; left; reflexivity|]. split; [apply in_or_app; right; right; apply in_or_app; right; left; reflexivity|].
  repeat (split; [assumption|]). clear - O. induction wa as [|w wa IH]; cbn [app] in O; inversion O as [|? ? A B]; subst.
  - rewrite Forall_forall in A. apply A. apply in_or_app. right. left. reflexivity.
  - exact (IH B).
Qed.

Definition group_set (g : mgroup) : N * list Z :=
  match g with
  | MgMotion => (aG, [0; 1; 2; 3]) | MgPlane => (aG, [17; 18; 19]) | MgDistance => (aG, [90]) | MgSpindle => (aM, [3; 4; 5]) | MgUnit => (aG, [21])
  | MgFeedRate => (aG, [93; 94]) | MgCoordinateSet => (aG, [54]) | MgCoolantFlood => (aM, [8; 9]) | MgCoolantMist => (aM, [7; 9])
  | _ => (aG, [0; 1; 2; 3])
  end%Z.
Lemma group_codes g l z : In (l, z) codes -> In (l, Z.to_N (10 * z)) (group_words g) -> In (group_set g) code_sets /\ l = fst (group_set g) /\ In z (snd (group_set g)).
Proof.
  assert (G : In (group_set g) code_sets) by (destruct g; cbn; tauto).
  intros I J. split; [exact G|]. apply in_flat_map in I. destruct I as (s & S & I). apply in_map_iff in I. destruct I as (z' & E & I). injection E as <- ->.
  unfold code_sets in S. cbn [In] in S.
  repeat (destruct S as [<-|S]; [cbn [fst snd In] in I; repeat (destruct I as [<-|I]; [destruct g; (split; [|cbn; tauto]) || idtac; cbn in J; intuition (discriminate || reflexivity)|]); destruct I|]).
  destruct S.
Qed.
Lemma value_letters_known l g : In (l, g) value_letters -> forall v, known (l, v) -> In l letters.
Proof.
  intros I v KW. destruct (known_cases _ KW) as [(X & _)|(z & IZ & _)]; [exact X|]. exfalso. cbn [fst] in IZ. destruct (code_small _ _ IZ) as (_ & LB).
  cbn in I. repeat (destruct I as [I|I]; [injection I as <- _; destruct LB; discriminate|]). destruct I.
Qed.
Lemma proper_consistent ws xs : Forall2 same_word ws xs -> proper ws -> consistent xs.
Proof.
  intros F (KN & OP). split.
  - intros (g & T). destruct (two_back _ _ _ F T _ OP) as (w1 & w2 & x1 & x2 & I1 & I2 & S1 & S2 & G1 & G2 & NE). apply NE. right.
    rewrite Forall_forall in KN.
    assert (X : forall w x, In w ws -> same_word w x -> in_group g x -> In (group_set g) code_sets /\ in_set (group_set g) w).
    { intros w x I (A & B & C) G. unfold in_group in G. destruct (known_cases _ (KN _ I)) as [(_ & NG & NM)|(z & IZ & V)].
      - exfalso. rewrite A in G. destruct g; cbn in G; repeat (destruct G as [G|G]; [injection G as X _; exact (NG (eq_sym X)) || exact (NM (eq_sym X))|]); destruct G.
      - destruct (code_small _ _ IZ) as (_ & LB). rewrite A, (C z LB V) in G. destruct (group_codes g _ _ IZ G) as (E1 & E2 & E3).
        split; [exact E1|]. split; [exact E2|]. exists z. auto. }
    destruct (X _ _ I1 S1 G1) as (E & S1'). destruct (X _ _ I2 S2 G2) as (_ & S2'). exists (group_set g). auto.
  - intros (l & g & I & T). destruct (two_back _ _ _ F T _ OP) as (w1 & w2 & x1 & x2 & I1 & I2 & (A1 & _) & (A2 & _) & G1 & G2 & NE). apply NE. left.
    split; [congruence|]. rewrite Forall_forall in KN. replace (fst w1) with l by congruence.
    apply (value_letters_known l g I (snd w1)). specialize (KN _ I1). destruct w1 as [l1 v1]. cbn [fst snd] in *. replace l with l1 by congruence. exact KN.
Qed.

(** *** The states correspond *)
Definition mode_of (k : rmode) : mMotion := match k with Rapid => G0 | Straight => G1 | Clockwise => G2 | Counterclockwise => G3 end.
Record sim (c : @gcode xr) (s : rstate) : Prop := {
  si_mode : s_motion (g_st c) = mode_of (rs_mode s);
  si_plane : arc_axes (s_plane (g_st c)) = rs_plane s;
  si_feed : s_feed (g_st c) = if rs_inverse s then G93 else G94;
  si_F : forall f, rs_F s = Some f -> letter x_num (g_st c) LtF = XF f /\ 0 < f;
  si_dist : s_dist (g_st c) = G90;
  si_unit : s_unit (g_st c) = G21;
  si_coord : s_coord (g_st c) = G54;
  si_pos : at_mm (s_cur (g_st c)) (rs_pos s);
  si_axis : forall ch i g, In (ch, i, g) axis_letters -> letter x_num (g_st c) g = XF (rs_pos s i) }.

Lemma sim0 : sim (gcode0 x_num) rs_start.
Proof.
  constructor; try reflexivity; try discriminate.
  - intros i L. destruct i as [|[|[|i]]]; [reflexivity..|lia].
  - intros ch i g I. cbn in I. repeat (destruct I as [I|I]; [injection I as <- <- <-; reflexivity|]). destruct I.
Qed.

Lemma ltb_pos f : 0 < f -> nltb x_num (nofZ x_num 0) (XF f) = true.
Proof. intros H. cbn [nltb x_num nofZ xltb]. unfold rltb. destruct (Rlt_dec (IZR 0) f); [reflexivity|lra]. Qed.

(** The feed after a line. *)
Lemma feed_head c0 cH (xs : list word) f : head_ok x_num c0 cH -> W c0 = xs -> consistent xs ->
  active_feed x_num xs (letter x_num (g_st c0) LtF) (XF f) -> letter x_num (g_st cH) LtF = XF f.
Proof.
  intros HH EW CO AF. pose proof (h_F _ _ _ HH) as HF. rewrite EW in HF.
  destruct AF as [(V & T)|(NF & NC & E)], HF as [(V' & T')|([(X & E')|(X & E')] & Y)].
  - destruct CO as (_ & NL). symmetry. apply (value_unique xs cF LtF _ _ NL); [cbn; tauto|exact V|exact V'].
  - exfalso. destruct Y as [Y|(x & VX & TX)]; [apply Y; destruct V as (w & I & A & _); exists w; auto|].
    destruct CO as (_ & NL). rewrite (value_unique xs cF LtF _ _ NL ltac:(cbn; tauto) VX V) in TX. congruence.
  - exfalso. destruct Y as [Y|(x & VX & TX)]; [apply Y; destruct V as (w & I & A & _); exists w; auto|].
    destruct CO as (_ & NL). rewrite (value_unique xs cF LtF _ _ NL ltac:(cbn; tauto) VX V) in TX. congruence.
  - exfalso. apply NF. destruct V' as (w & I & A & _). exists w. auto.
  - exfalso. destruct X as (l0 & n & v & I & X). exact (NC _ _ _ I X).
  - congruence.
Qed.
Lemma feed_after c m l c' m' (xs : list word) : line_words x_num l xs -> consistent xs -> sized (g_st c) -> rline c m l = Ok (c', m') ->
  ~ dwell x_num xs -> s_feed (g_st c') = G94 -> forall f, active_feed x_num xs (letter x_num (g_st c) LtF) (XF f) -> letter x_num (g_st c') LtF = XF f.
Proof.
  intros LW CO SZ H ND F94 f AF.
  destruct (line_cases x_num (XF PI) c m l c' m' xs LW SZ H) as [(N & _)|(_ & b & c0 & cH & cM & C & EB & E1 & E0 & HH & HM & O)]; [contradiction|].
  assert (EW : W c0 = xs) by (unfold W; rewrite E1; exact EB).
  rewrite <- E0 in AF. pose proof (feed_head c0 cH xs f HH EW CO AF) as FH.
  assert (FM : letter x_num (g_st cM) LtF = XF f) by (rewrite <- FH; unfold letter; now rewrite (o_letters _ _ HM)).
  destruct O as [x c1 m1 D1 _ _ _ _ _|g1 c1 m1 _ _ _ _ ES _ _|g1 s1 c1 m1 _ _ _ _ _ _ [->|(-> & _ & _ & X)] _ ES _ _|c1 m1 _ _ _ _ _ ES _ _ _|c1 m1 _ _ _ _ ES _ _ _].
  - contradiction.
  - rewrite ES. exact FM.
  - rewrite ES. exact FM.
  - exfalso. rewrite ES in F94. change (s_feed (g_st cM) = G94) in F94. congruence.
  - rewrite ES. exact FM.
  - rewrite ES. exact FM.
Qed.

(** A line makes a motion if it has a motion code or an axis word and, with G1, a feed. *)
Lemma axis_counted (b : @block xr) : counted b -> hasAxis b = true <-> exists l, In l [cX; cY; cZ] /\ has_letter (b_words b) l.
Proof.
  intros (_ & _ & _ & _ & _ & CA & _). unfold hasAxis. rewrite CA, N.ltb_lt, cnt_pos. unfold tst. split.
  - intros (w & I & E). apply let_in_spec in E. exists (w_letter w). split; [exact E|]. exists w. auto.
  - intros (l & L & w & I & E). exists w. split; [exact I|]. apply let_in_spec. now rewrite E.
Qed.
Lemma when_moving c m l c' m' (xs : list word) : line_words x_num l xs -> consistent xs -> sized (g_st c) -> rline c m l = Ok (c', m') ->
  ~ dwell x_num xs -> ~ has xs cG 530 ->
  (has xs cG 10 -> exists f, 0 < f /\ active_feed x_num xs (letter x_num (g_st c) LtF) (XF f)) ->
  (made_motion c' m' <-> (exists l n v, In (l, n, v) motion_words /\ has xs l n) \/ exists l, In l [cX; cY; cZ] /\ has_letter xs l).
Proof.
  intros LW CO SZ H ND N53 FD.
  destruct (line_cases x_num (XF PI) c m l c' m' xs LW SZ H) as [(N & _)|(_ & b & c0 & cH & cM & C & EB & E1 & E0 & HH & HM & O)]; [contradiction|].
  assert (EW : W c0 = xs) by (unfold W; rewrite E1; exact EB). pose proof (axis_counted b C) as AX. rewrite EB in AX.
  destruct O as [x c1 m1 D1 _ _ _ _ _|g1 c1 m1 _ D2 _ _ _ _ _|g1 s1 c1 m1 _ _ _ D4 _ CM _ _ _ D10 _|c1 m1 _ _ _ D4 D5 _ _ _ _|c1 m1 _ _ D3 D4 _ _ _ D8].
  - contradiction.
  - contradiction.
  - split; [rewrite <- AX; auto|]. intros _. destruct (calcMotion_fields x_num (XF PI) _ _ _ _ _ CM) as (T & _).
    split; [rewrite T; destruct g1; discriminate|congruence].
  - exfalso. destruct (FD D4) as (f & F0 & AF). rewrite <- E0 in AF. pose proof (feed_head c0 cH xs f HH EW CO AF) as FH.
    assert (FM : letter x_num (g_st cM) LtF = XF f) by (rewrite <- FH; unfold letter; now rewrite (o_letters _ _ HM)).
    rewrite FM, (ltb_pos f F0) in D5. discriminate.
  - split; [intros (X & _); exfalso; apply X; rewrite D8; reflexivity|].
    intros [(l0 & n & v & I & X)|X]; exfalso; [exact (D3 _ _ _ I X)|]. apply AX in X. congruence.
Qed.

(** *** Modes *)
Section M.
Variables (ws : list rword) (xs : list word).
Hypothesis SW : Forall2 same_word ws xs.
Hypothesis PR : proper ws.

Lemma one_code s z z' : In s code_sets -> fst s = aG -> In z (snd s) -> In z' (snd s) -> In (aG, IZR z) ws -> In (aG, IZR z') ws -> z = z'.
Proof.
  intros S SG Z Z' I I'. destruct PR as (_ & OP). destruct (ForallOrdPairs_In OP _ _ I I') as [E|[E|E]].
  - injection E as E. now apply eq_IZR in E.
  - exfalso. apply E. right. exists s. split; [exact S|]. split; (split; [symmetry; exact SG|eauto]).
  - exfalso. apply E. right. exists s. split; [exact S|]. split; (split; [symmetry; exact SG|eauto]).
Qed.
Lemma sets_follows {V U} (T : list (Z * V)) (TT : list (N * N * U)) (h : V -> U) s old new u :
  TT = map (fun e => (cG, Z.to_N (10 * fst e), h (snd e))) T -> In s code_sets -> fst s = aG ->
  (forall z v, In (z, v) T -> In z (snd s) /\ (0 <= z)%Z /\ forall v', In (z, v') T -> v' = v) ->
  sets T ws old new -> follows TT xs (h old) u -> u = h new.
Proof.
  intros -> S SG HT HS HF.
  assert (FB : forall l n v, In (l, n, v) (map (fun e => (cG, Z.to_N (10 * fst e), h (snd e))) T) -> has xs l n ->
    exists z w, In (z, w) T /\ v = h w /\ In (aG, IZR z) ws).
  { intros l n v I H. apply in_map_iff in I. destruct I as ([z w] & E & I). cbn [fst snd] in E. injection E as <- <- <-.
    exists z, w. split; [exact I|]. split; [reflexivity|]. destruct (HT _ _ I) as (_ & Z0 & _).
    apply (code_iff ws xs SW (proj1 PR) cG z); [now left|exact Z0|exact H]. }
  destruct HF as [(l & n & I & H)|(-> & NH)].
  - destruct (FB _ _ _ I H) as (z & w & IT & -> & IW). destruct HS as [(z' & IT' & IW')|(_ & NS)]; [|exfalso; exact (NS _ _ IT IW)].
    destruct (HT _ _ IT) as (A & _ & U1). destruct (HT _ _ IT') as (A' & _). rewrite (one_code s z z' S SG A A' IW IW') in *. f_equal.
    destruct (HT _ _ IT') as (_ & _ & U2). symmetry. now apply U1.
  - destruct HS as [(z' & IT' & IW')|(-> & NS)]; [|reflexivity]. exfalso. apply (NH cG (Z.to_N (10 * z')) (h new)).
    + apply in_map_iff. exists (z', new). auto.
    + destruct (HT _ _ IT') as (_ & Z0 & _). apply (code_iff ws xs SW (proj1 PR) cG z'); [now left|exact Z0|exact IW'].
Qed.
End M.

Definition plane_of (a : nat * nat) : mPlane := match a with (0, _) => G17 | (1, _) => G18 | _ => G19 end%nat.
Lemma plane_of_axes p : plane_of (arc_axes p) = p.
Proof. destruct p; reflexivity. Qed.
Definition feed_of (b : bool) : mFeed := if b then G93 else G94.
Lemma axis_letter_of ch i g : In (ch, i, g) axis_letters -> ch = axis_letter i.
Proof. intros I. cbn in I. repeat (destruct I as [I|I]; [injection I as <- <- <-; reflexivity|]). destruct I. Qed.
Lemma axis_letter_in i : (i < 3)%nat -> exists g, In (axis_letter i, i, g) axis_letters.
Proof. intros L. destruct i as [|[|[|i]]]; [exists LtX; cbn; tauto|exists LtY; cbn; tauto|exists LtZ; cbn; tauto|lia]. Qed.

Lemma no_other ws xs n : Forall2 same_word ws xs -> Forall known ws -> existsb (fun c => (fst c =? cG) && (n =? Z.to_N (10 * snd c)))%N codes = false -> ~ has xs cG n.
Proof.
  intros SW KN E. apply (no_code ws xs SW KN); [now left|]. intros z I ->.
  assert (X : existsb (fun c => (fst c =? cG) && (Z.to_N (10 * z) =? Z.to_N (10 * snd c)))%N codes = true).
  { apply existsb_exists. exists (cG, z). split; [exact I|]. cbn [fst snd]. now rewrite !N.eqb_refl. }
  congruence.
Qed.

Lemma feed_active c s ws xs f : sim c s -> Forall2 same_word ws xs -> proper ws -> (forall f, In (aF, f) ws -> 0 < f) -> feed_for s ws f ->
  0 < f /\ active_feed x_num xs (letter x_num (g_st c) LtF) (XF f).
Proof.
  intros SI SW PR FP [I|(NS & NC & E)].
  - split; [now apply FP|]. left. split; [now apply (value_iff ws xs SW cF)|]. apply ltb_pos. now apply FP.
  - destruct (si_F _ _ SI f E) as (EF & F0). split; [exact F0|]. right. split; [now apply (silent_iff ws xs SW cF)|]. split; [|now rewrite EF].
    intros l n v I H. cbn in I. destruct I as [I|[I|[]]]; injection I as <- <- _.
    + apply (NC 93%Z true); [cbn; tauto|]. apply (code_iff ws xs SW (proj1 PR) cG 93); [now left|lia|exact H].
    + apply (NC 94%Z false); [cbn; tauto|]. apply (code_iff ws xs SW (proj1 PR) cG 94); [now left|lia|exact H].
Qed.

Lemma step_sim c m s l ws s1 ce : reachedR c m -> sim c s -> written l ws -> block_reads s ws s1 ->
  centre_of (rs_plane s1) ws ce -> (is_arc (rs_mode s1) = false -> ce = None) ->
  (moves ws -> rs_mode s1 <> Rapid -> exists f, feed_for s ws f) ->
  exists xs c1 m1, line_words x_num l xs /\ Forall2 same_word ws xs /\ consistent xs /\ rline c m l = Ok (c1, m1) /\ sim c1 s1 /\ ~ has xs cG 530 /\
    (made_motion c1 m1 <-> moves ws) /\ (moves ws -> sm_type m1 = mtype (mode_of (rs_mode s1))).
Proof.
  intros RE SI WR [PR BM BP BI BX BF BF'] CE NA FD.
  destruct (written_words l ws WR (proj1 PR)) as (xs & LW & SW). pose proof (proper_consistent ws xs SW PR) as CO. pose proof (proj1 PR) as KN.
  assert (N4 : ~ has xs cG 40) by (apply (no_other ws xs); auto).
  assert (N53 : ~ has xs cG 530) by (apply (no_other ws xs); auto).
  assert (N91 : ~ has xs cG 910) by (apply (no_other ws xs); auto).
  assert (N20 : ~ has xs cG 200) by (apply (no_other ws xs); auto).
  assert (NC : forall l0 n v, In (l0, n, v) coord_words -> v <> G54 -> ~ has xs l0 n).
  { intros l0 n v I NE. cbn in I. repeat (destruct I as [I|I]; [injection I as <- <- <-; [try (exfalso; apply NE; reflexivity)]; try (apply (no_other ws xs); auto)|]); destruct I. }
  assert (ND : ~ dwell x_num xs) by (intros (X & _); contradiction).
  pose proof (reached_sized _ _ _ _ RE) as SZ.
  assert (MC : forall z k, In (z, k) mode_codes -> In (aG, IZR z) ws <-> has xs cG (Z.to_N (10 * z))).
  { intros z k I. symmetry. apply (code_iff ws xs SW KN cG z); [now left|]. cbn in I. repeat (destruct I as [I|I]; [injection I as <- _; lia|]). destruct I. }
  assert (TOT : exists r, rline c m l = Ok r).
  { apply (line_total x_num (XF PI) c m l xs SZ LW).
    assert (AR : (ce = None /\ forall ch, In ch center_letters -> ~ has_letter xs ch) \/ is_arc (rs_mode s1) = true).
    { destruct (is_arc (rs_mode s1)) eqn:EA; [now right|]. left. rewrite (NA eq_refl) in CE. destruct CE as (C1 & C2). split; [now apply NA|].
      intros ch I. apply (silent_iff ws xs SW). cbn in I. destruct I as [<-|[<-|[<-|[<-|[]]]]];
      [apply (C1 0%nat); lia|apply (C1 1%nat); lia|apply (C1 2%nat); lia|exact C2]. }
    destruct AR as [(_ & A)|A]; [left; exact A|right].
    destruct BM as [(z & I & J)|(E & NM)].
    - assert (SS : In (aG, [0; 1; 2; 3]%Z) code_sets) by (cbn; tauto).
      assert (Z23 : z = 2%Z \/ z = 3%Z).
      { cbn in I. destruct I as [I|[I|[I|[I|[]]]]]; injection I as <- I; auto; rewrite <- I in A; discriminate. }
      assert (NO : forall z' k', In (z', k') mode_codes -> z' <> z -> ~ has xs cG (Z.to_N (10 * z'))).
      { intros z' k' I' NE H. apply (MC z' k' I') in H. apply NE.
        apply (one_code ws PR (aG, [0; 1; 2; 3]%Z) z' z SS eq_refl); auto; cbn [snd].
        - cbn in I'. cbn. destruct I' as [I'|[I'|[I'|[I'|[]]]]]; injection I' as <- _; tauto.
        - cbn. destruct Z23; subst; tauto. }
      split; [apply (NO 0%Z Rapid); [cbn; tauto|destruct Z23; subst; discriminate]|].
      split; [apply (NO 1%Z Straight); [cbn; tauto|destruct Z23; subst; discriminate]|]. split; [exact N4|]. split; [exact N53|].
      apply (MC z _ I) in J. destruct Z23; subst; [left|right; left]; exact J.
    - rewrite E in A. split; [intros H; apply (NM 0%Z Rapid); [cbn; tauto|apply (MC 0%Z Rapid); [cbn; tauto|exact H]]|].
      split; [intros H; apply (NM 1%Z Straight); [cbn; tauto|apply (MC 1%Z Straight); [cbn; tauto|exact H]]|].
      split; [exact N4|]. split; [exact N53|]. right. right. rewrite (si_mode _ _ SI). destruct (rs_mode s); try discriminate A; auto. }
  destruct TOT as ([c1 m1] & E).
  exists xs, c1, m1. split; [exact LW|]. split; [exact SW|]. split; [exact CO|]. split; [exact E|].
  assert (RE1 : reachedR c1 m1) by (eapply reached_line; eauto).
  destruct (modal_lemma x_num (XF PI) c m l c1 m1 xs LW CO SZ E) as ((FF & _) & ML & _). destruct (ML ND) as (FU & FP & FDI & FCO & FM). specialize (FM N53).
  assert (EM : s_motion (g_st c1) = mode_of (rs_mode s1)).
  { apply (sets_follows ws xs SW PR mode_codes motion_words mode_of (aG, [0; 1; 2; 3]%Z) (rs_mode s) (rs_mode s1)); auto; [cbn; tauto| |rewrite <- (si_mode _ _ SI); exact FM].
    intros z v I. cbn in I. repeat (destruct I as [I|I]; [injection I as <- <-; split; [cbn; tauto|]; split; [lia|]; intros v' I'; cbn in I'; intuition congruence|]). destruct I. }
  assert (EP : s_plane (g_st c1) = plane_of (rs_plane s1)).
  { apply (sets_follows ws xs SW PR plane_codes plane_words plane_of (aG, [17; 18; 19]%Z) (rs_plane s) (rs_plane s1)); auto; [cbn; tauto| |].
    - intros z v I. cbn in I. repeat (destruct I as [I|I]; [injection I as <- <-; split; [cbn; tauto|]; split; [lia|]; intros v' I'; cbn in I'; intuition congruence|]). destruct I.
    - rewrite <- (si_plane _ _ SI), plane_of_axes. exact FP. }
  assert (EF : s_feed (g_st c1) = feed_of (rs_inverse s1)).
  { apply (sets_follows ws xs SW PR inverse_codes feed_words feed_of (aG, [93; 94]%Z) (rs_inverse s) (rs_inverse s1)); auto; [cbn; tauto| |].
    - intros z v I. cbn in I. repeat (destruct I as [I|I]; [injection I as <- <-; split; [cbn; tauto|]; split; [lia|]; intros v' I'; cbn in I'; intuition congruence|]). destruct I.
    - unfold feed_of at 1. rewrite <- (si_feed _ _ SI). exact FF. }
  assert (EU : s_unit (g_st c1) = G21).
  { destruct FU as [(l0 & n & I & H)|(X & _)]; [|rewrite X; apply (si_unit _ _ SI)]. cbn in I. destruct I as [I|[I|[]]]; injection I as <- <- I; [contradiction|congruence]. }
  assert (ED : s_dist (g_st c1) = G90).
  { destruct FDI as [(l0 & n & I & H)|(X & _)]; [|rewrite X; apply (si_dist _ _ SI)]. cbn in I. destruct I as [I|[I|[]]]; injection I as <- <- I; [congruence|contradiction]. }
  assert (EC : s_coord (g_st c1) = G54).
  { destruct FCO as [(l0 & n & I & H)|(X & _)]; [|rewrite X; apply (si_coord _ _ SI)].
    destruct (s_coord (g_st c1)) eqn:EQ; try reflexivity; exfalso; eapply NC; try exact H; try exact I; discriminate. }
  assert (AF : forall f, feed_for s ws f -> 0 < f /\ active_feed x_num xs (letter x_num (g_st c) LtF) (XF f)) by (intros f; apply (feed_active c s ws xs f SI SW PR BF)).
  assert (G1 : has xs cG 10 -> exists f, 0 < f /\ active_feed x_num xs (letter x_num (g_st c) LtF) (XF f)).
  { intros H. apply (MC 1%Z Straight ltac:(cbn; tauto)) in H. destruct FD as (f & FF').
    - left. exists 1%Z, Straight. split; [cbn; tauto|exact H].
    - destruct BM as [(z & I & J)|(_ & NM)]; [|exfalso; exact (NM 1%Z Straight ltac:(cbn; tauto) H)].
      assert (z = 1%Z).
      { apply (one_code ws PR (aG, [0; 1; 2; 3]%Z) z 1%Z); auto; cbn; try tauto. cbn in I. destruct I as [I|[I|[I|[I|[]]]]]; injection I as <- _; tauto. }
      subst z. cbn in I. destruct I as [I|[I|[I|[I|[]]]]]; try discriminate I. injection I as <-. discriminate.
    - exists f. now apply AF. }
  assert (MV : made_motion c1 m1 <-> moves ws).
  { rewrite (when_moving c m l c1 m1 xs LW CO SZ E ND N53 G1). split.
    - intros [(l0 & n & v & I & H)|(l0 & I & H)].
      + left. cbn in I. destruct I as [I|[I|[I|[I|[]]]]]; injection I as <- <- <-;
        [exists 0%Z, Rapid|exists 1%Z, Straight|exists 2%Z, Clockwise|exists 3%Z, Counterclockwise]; (split; [cbn; tauto|]); (eapply MC; [cbn; tauto|exact H]).
      + right. apply (letter_iff ws xs SW) in H. destruct H as (v & H). cbn in I.
        destruct I as [<-|[<-|[<-|[]]]]; [exists 0%nat, v|exists 1%nat, v|exists 2%nat, v]; (split; [lia|exact H]).
    - intros [(z & k & I & H)|(i & v & L & H)].
      + left. exists cG, (Z.to_N (10 * z)), (mode_of k). split; [|now apply (MC z k I)]. cbn in I. destruct I as [I|[I|[I|[I|[]]]]]; injection I as <- <-; cbn; tauto.
      + right. exists (axis_letter i). split; [destruct i as [|[|[|i]]]; [cbn; tauto|cbn; tauto|cbn; tauto|lia]|]. apply (letter_iff ws xs SW). eauto. }
  destruct (letters_lemma x_num (XF PI) c m l c1 m1 xs LW CO SZ E) as (FL & _).
  assert (LA : forall ch i g, In (ch, i, g) axis_letters -> letter x_num (g_st c1) g = XF (rs_pos s1 i)).
  { intros ch i g AX. destruct (axis_index _ _ _ AX) as (Li & Lg & NF & VL & I7). pose proof (axis_letter_of _ _ _ AX) as EL.
    destruct (FL ch g I7) as [V|(EQ & NL)].
    - destruct (value_real ws xs SW _ _ V) as (v & EV). rewrite EV in *. apply (value_iff ws xs SW) in V. f_equal.
      destruct (BX i Li) as [B|(B & _)]; [|exfalso; rewrite <- EL in B; exact (B v V)].
      rewrite <- EL in B. apply (value_iff ws xs SW) in B, V. destruct CO as (_ & NLC). pose proof (value_unique xs ch g _ _ NLC VL V B) as X. now injection X.
    - apply (silent_iff ws xs SW) in NL. destruct (BX i Li) as [B|(_ & B)]; [exfalso; rewrite <- EL in B; exact (NL _ B)|]. rewrite EQ, B. exact (si_axis _ _ SI _ _ _ AX). }
  split; [|split; [exact N53|split; [exact MV|]]].
  - constructor; auto.
    + rewrite EP. assert (X : exists p, rs_plane s1 = arc_axes p).
      { destruct BP as [(z & I & _)|(X & _)]; [|exists (s_plane (g_st c)); rewrite X; symmetry; apply (si_plane _ _ SI)].
        cbn in I. destruct I as [I|[I|[I|[]]]]; injection I as _ <-; [exists G17|exists G18|exists G19]; reflexivity. }
      destruct X as (p & ->). now rewrite plane_of_axes.
    + intros f EQ. destruct (BF' f EQ) as (IV & FF'). destruct (AF f FF') as (F0 & A). split; [|exact F0].
      apply (feed_after c m l c1 m1 xs LW CO SZ E ND); [rewrite EF, IV; reflexivity|exact A].
    + assert (OFF : forall i, (i < 3)%nat -> nth i (nth (co_index G54) (s_wcs (g_st c1)) []) (XF 0) = XF 0).
      { intros i L. rewrite (reached_wcs x_num (XF PI) c1 m1 RE1). destruct i as [|[|[|i]]]; [reflexivity..|lia]. }
      destruct (line_motion x_num (XF PI) c m l c1 m1 xs LW SZ E) as [(NM & CUR & _)|(MM & _ & (sP & b & t & KO) & _)].
      * intros i L. rewrite CUR, (si_pos _ _ SI i L). f_equal. destruct (BX i L) as [B|(_ & B)]; [|auto].
        exfalso. apply NM, MV. right. exists i. eauto.
      * intros i L. destruct (axis_letter_in i L) as (g & AX). destruct (axis_index _ _ _ AX) as (Li & Lg & NFl & _ & _).
        rewrite (k_cur' _ _ _ _ _ _ _ _ _ _ KO). unfold coord_at. fold (nthZ x_num (map (next_axis x_num sP) axes) i). rewrite nth_axes by exact Li.
        assert (CP : s_coord sP = G54).
        { destruct (k_coord _ _ _ _ _ _ _ _ _ _ KO) as [(X & _)|(_ & X & _)]; [congruence|contradiction]. }
        unfold next_axis. rewrite (k_dist _ _ _ _ _ _ _ _ _ _ KO), ED, to_mm_in, (k_unit _ _ _ _ _ _ _ _ _ _ KO), EU, CP.
        rewrite (k_wcs _ _ _ _ _ _ _ _ _ _ KO). rewrite <- (proj2 (sized_line x_num (XF PI) _ _ _ _ _ SZ E)). unfold nthZ at 1.
        change (nofZ x_num 0) with (XF 0). rewrite (OFF i L).
        rewrite <- Lg. fold (letter x_num sP g). rewrite (k_letters _ _ _ _ _ _ _ _ _ _ KO g NFl), (LA _ _ _ AX), Lg. cbn. f_equal. ring.
  - intros MO. apply MV in MO. destruct (line_motion x_num (XF PI) c m l c1 m1 xs LW SZ E) as [(NM & _)|(_ & _ & (sP & b & t & KO) & _)]; [contradiction|].
    destruct (calcMotion_fields x_num (XF PI) _ _ _ _ _ (k_calc _ _ _ _ _ _ _ _ _ _ KO)) as (T & _). rewrite T, <- EM.
    destruct (k_type _ _ _ _ _ _ _ _ _ _ KO) as [(X & _)|[(_ & X & _)|(_ & _ & ET)]]; [contradiction|contradiction|exact ET].
Qed.

(** *** Moves *)
Definition told (mv : move) (P : path) : Prop :=
  (forall i, (i < 3)%nat -> path_pos P i 0 = mv_from mv i /\ path_pos P i (pa_len P) = mv_to mv i) /\
  (if is_arc (mv_mode mv) then exists a, pa_arc P = Some a /\ arc_does mv a else pa_arc P = None).

Lemma centre_letter_of i : (i < 3)%nat -> centre_letter i = fst (offset_letter i).
Proof. intros L. destruct i as [|[|[|i]]]; [reflexivity..|lia]. Qed.
Lemma centre_value i : exists g, In (fst (offset_letter i), g) value_letters.
Proof. destruct i as [|[|i]]; [exists LtI|exists LtJ|exists LtK]; cbn; tauto. Qed.
Lemma dist2_from p0 p1 o0 o1 : dist2 (p0 + o0) (p1 + o1) p0 p1 = sq o0 + sq o1.
Proof. unfold dist2, sq. ring. Qed.

Section R.
Variable r : rmach.
Hypothesis KP : forall i, (i < 3)%nat -> 0 < rm_k r i.

Lemma step_move c m s l ws s1 mv : reachedR c m -> sim c s -> written l ws -> block_reads s ws s1 -> asks_for s ws s1 mv -> possible r mv ->
  exists c1 m1 P, rline c m l = Ok (c1, m1) /\ sim c1 s1 /\ announced c1 = true /\ executable r m1 P /\ told mv P /\ sm_vFeed m1 = speed_of mv (pa_len P).
Proof.
  intros RE SI WR BR (MO & KM & KF & KT & KPL & CE & KI & NA & FD) PO.
  destruct (step_sim c m s l ws s1 (mv_centre mv) RE SI WR BR CE NA) as (xs & c1 & m1 & LW & SW & CO & E & SI1 & N53 & MV & TY).
  { intros _ NR. destruct (FD NR) as (F & _). eauto. }
  specialize (TY MO). apply MV in MO. rename MO into MM.
  pose proof (reached_sized _ _ _ _ RE) as SZ.
  assert (AN : announced c1 = true) by (apply announced_spec; now apply (announced_lemma x_num (XF PI) c m l c1 m1 xs LW SZ E N53)).
  assert (PL : arc_axes (s_plane (g_st c1)) = mv_plane mv) by (rewrite KPL; apply (si_plane _ _ SI1)).
  assert (PL3 : (fst (mv_plane mv) < 3)%nat /\ (snd (mv_plane mv) < 3)%nat).
  { destruct (mv_plane mv) as [a0 a1] eqn:EQ. exact (plane_axes _ _ _ PL). }
  pose proof (br_proper _ _ _ BR) as PR.
  assert (AF : rs_mode s1 <> Rapid -> 0 < mv_F mv /\ active_feed x_num xs (letter x_num (g_st c) LtF) (XF (mv_F mv))).
  { intros NR. apply (feed_active c s ws xs _ SI SW PR (br_F _ _ _ BR)). now apply FD. }
  assert (NR : is_feed_type (sm_type m1) -> rs_mode s1 <> Rapid).
  { intros T EQ. rewrite TY, EQ in T. destruct T as [T|[T|T]]; discriminate T. }
  rewrite <- KPL in CE. unfold possible in PO. rewrite KF, KT, KM in PO. destruct (mv_plane mv) as [a0 a1] eqn:EPL. cbn [fst snd] in *. destruct PL3 as (L0 & L1).
  destruct PO as (d & RG & PO).
  assert (BO : block_ok r c xs c1 m1).
  { split; [exact N53|]. intros _. exists (rs_pos s), (rs_pos s1), d. split; [apply (si_pos _ _ SI)|]. split; [apply (si_pos _ _ SI1)|]. split; [|split; [exact RG|]].
    - unfold drawable. rewrite (si_unit _ _ SI1), TY. unfold mm. destruct (is_arc (rs_mode s1)) eqn:EA.
      + right. split; [unfold is_arc_type; destruct (rs_mode s1); try discriminate EA; auto|]. exists a0, a1. split; [exact PL|].
        destruct (mv_centre mv) as [[o0 o1|R]|]; [left|right|destruct PO].
        * exists o0, o1. destruct CE as (C0 & C1 & _). cbn [fst snd] in *. rewrite centre_letter_of in C0, C1 by auto.
          split; [now apply (value_iff ws xs SW)|]. split; [now apply (value_iff ws xs SW)|]. cbv zeta. rewrite dist2_from. tauto.
        * exists R. destruct CE as (C0 & C1). split; [|split; [now apply (value_iff ws xs SW cR)|tauto]].
          intros i Hi. apply (silent_iff ws xs SW). rewrite <- centre_letter_of by exact Hi. now apply C0.
      + left. rewrite (NA eq_refl) in PO. split; [unfold is_line_type; destruct (rs_mode s1); try discriminate EA; auto|exact PO].
    - intros T. exists (mv_F mv). apply AF. now apply NR. }
  destruct (block_path r KP c m l xs c1 m1 RE E LW BO AN) as (p & q & P & HP & HQ & G & AS & EX).
  exists c1, m1, P. split; [exact E|]. split; [exact SI1|]. split; [exact AN|]. split; [exact EX|].
  pose proof (at_mm_unique _ _ _ HP (si_pos _ _ SI)) as EP. pose proof (at_mm_unique _ _ _ HQ (si_pos _ _ SI1)) as EQ.
  destruct G as (DS & OK & GO). assert (LEN : sm_length m1 = XF (pa_len P)) by apply DS.
  split; [split|].
  - intros i Hi. destruct (GO i Hi) as (A & B). rewrite A, B, KF, KT. auto.
  - rewrite KM. unfold asks in AS. rewrite TY in AS. destruct (pa_arc P) as [a|] eqn:PA.
    + cbv zeta in AS. rewrite (si_unit _ _ SI1), PL in AS. unfold mm in AS. destruct AS as (T & AX & S & CC).
      assert (EA : is_arc (rs_mode s1) = true) by (destruct (rs_mode s1); try reflexivity; destruct T as [T|T]; discriminate T).
      rewrite EA. exists a. split; [reflexivity|]. unfold arc_does. rewrite EPL, KM, KF, KT. injection AX as -> ->. rewrite !EP, !EQ in * by auto.
      split; [reflexivity|]. split; [destruct (rs_mode s1); try discriminate EA; exact S|]. rewrite EA in PO.
      destruct CO as (_ & NL).
      destruct (mv_centre mv) as [[o0 o1|R]|]; [| |destruct PO].
      * destruct CE as (C0 & C1 & CR). cbn [fst snd] in *. rewrite centre_letter_of in C0, C1 by auto.
        apply (value_iff ws xs SW) in C0, C1. destruct CC as [(x0 & x1 & V0 & V1 & E0 & E1)|(R & NO & _)].
        -- destruct (centre_value (ar_0 a)) as (g0 & I0). destruct (centre_value (ar_1 a)) as (g1 & I1).
           pose proof (value_unique xs _ _ _ _ NL I0 V0 C0) as X0. pose proof (value_unique xs _ _ _ _ NL I1 V1 C1) as X1.
           injection X0 as ->. injection X1 as ->. auto.
        -- exfalso. apply (NO _ L0). destruct C0 as (w & I & A & _). exists w. auto.
      * destruct CE as (C0 & C1). apply (value_iff ws xs SW aR) in C1. destruct CC as [(x0 & x1 & V0 & _)|(R' & _ & V & A & B & C)].
        -- exfalso. pose proof (C0 _ L0) as X. rewrite centre_letter_of in X by auto. apply (silent_iff ws xs SW) in X. apply X. destruct V0 as (w & I & A & _). exists w. auto.
        -- assert (X : XF R' = XF R) by (apply (value_unique xs cR LtR _ _ NL); [cbn; tauto|exact V|exact C1]). injection X as ->. auto.
    + assert (EA : is_arc (rs_mode s1) = false) by (destruct (rs_mode s1); try reflexivity; destruct AS as [T|T]; discriminate T). now rewrite EA.
  - destruct (speed_lemma c m l c1 m1 xs LW SZ E MM) as (VT & VF). unfold speed_of. rewrite KM.
    assert (X : rs_mode s1 <> Rapid -> sm_vFeed m1 = XF (if mv_inverse mv then pa_len P * mv_F mv / 60 else mv_F mv / 60)).
    { intros NRM. destruct (AF NRM) as (F0 & A). destruct (VF) with (f := mv_F mv) (L := pa_len P) as (V & _); auto.
      - rewrite TY. unfold is_feed_type, is_arc_type. destruct (rs_mode s1); auto; contradiction.
      - cbv zeta in V. rewrite (si_feed _ _ SI1), (si_unit _ _ SI1) in V. rewrite KI. destruct (rs_inverse s1); exact V. }
    destruct (rs_mode s1); [apply VT; rewrite TY; reflexivity|apply X; discriminate..].
Qed.

(** *** Programs *)
Lemma program_sim : forall ls wss c m s mvs s', Forall2 written ls wss -> interp s wss mvs s' -> Forall (possible r) mvs -> reachedR c m -> sim c s ->
  exists c' m' outs Ps, rprogram c m ls = Ok (c', m', outs) /\ sim c' s' /\ Forall2 (executable r) (sent outs) Ps /\ Forall2 told mvs Ps /\
    Forall2 (fun mv mP => sm_vFeed (fst mP) = speed_of mv (pa_len (snd mP))) mvs (combine (sent outs) Ps) /\ chained (rs_pos s) Ps /\
    forall i, (i < 3)%nat -> end_of (rs_pos s) Ps i = rs_pos s' i.
Proof.
  intros ls wss c m s mvs s' F I. revert ls c m F. induction I as [s|s ws s1 wss mvs s' BR NM CE I IH|s ws s1 mv wss mvs s' BR AS I IH]; intros ls c m F PO RE SI.
  - inversion F; subst. exists c, m, [], []. split; [reflexivity|]. split; [exact SI|]. split; [constructor|]. split; [constructor|]. split; [constructor|]. split; [exact Logic.I|reflexivity].
  - inversion F as [|l ? ls' ? WR F']; subst.
    destruct (step_sim c m s l ws s1 None RE SI WR BR CE) as (xs & c1 & m1 & LW & SW & CO & E & SI1 & N53 & MV & _); [auto|contradiction|].
    assert (RE1 : reachedR c1 m1) by (eapply reached_line; eauto).
    destruct (IH ls' c1 m1 F' PO RE1 SI1) as (c' & m' & o & Ps & A1 & A2 & A3 & A4 & A5 & A6 & A7).
    assert (AN : announced c1 = false).
    { destruct (announced c1) eqn:AN; [|reflexivity]. exfalso. apply announced_spec in AN.
      apply (announced_lemma x_num (XF PI) c m l c1 m1 xs LW (reached_sized _ _ _ _ RE) E N53) in AN. now apply NM, MV. }
    assert (EPOS : forall i, (i < 3)%nat -> rs_pos s1 i = rs_pos s i).
    { intros i L. destruct (br_pos _ _ _ BR i L) as [B|(_ & B)]; [|exact B]. exfalso. apply NM. right. eauto. }
    exists c', m', ((c1, m1) :: o), Ps. split; [cbn [g_run]; rewrite E; cbn [rbind fst snd]; rewrite A1; reflexivity|]. split; [exact A2|].
    unfold sent. cbn [filter fst]. rewrite AN. fold (sent o). repeat (split; [assumption|]).
    split; [eapply chained_ext; [|exact A6]; exact EPOS|]. intros i L. rewrite <- (A7 i L). apply end_ext; [intros; symmetry; auto|exact L].
  - inversion F as [|l ? ls' ? WR F']; subst. inversion PO as [|? ? P1 PO']; subst.
    destruct (step_move c m s l ws s1 mv RE SI WR BR AS P1) as (c1 & m1 & P & E & SI1 & AN & EX & TO & SP).
    assert (RE1 : reachedR c1 m1) by (eapply reached_line; eauto).
    destruct (IH ls' c1 m1 F' PO' RE1 SI1) as (c' & m' & o & Ps & A1 & A2 & A3 & A4 & A5 & A6 & A7).
    destruct AS as (_ & _ & KF & KT & _).
    assert (TE : forall i, (i < 3)%nat -> path_pos P i (pa_len P) = rs_pos s1 i) by (intros i L; rewrite (proj2 (proj1 TO i L)), KT; reflexivity).
    exists c', m', ((c1, m1) :: o), (P :: Ps). split; [cbn [g_run]; rewrite E; cbn [rbind fst snd]; rewrite A1; reflexivity|]. split; [exact A2|].
    unfold sent. cbn [filter fst]. rewrite AN. fold (sent o). cbn [map snd combine].
    split; [constructor; auto|]. split; [constructor; auto|]. split; [constructor; auto|]. split; [split|].
    + intros i L. rewrite (proj1 (proj1 TO i L)), KF. reflexivity.
    + eapply chained_ext; [|exact A6]. intros i L. symmetry. auto.
    + intros i L. cbn [end_of]. rewrite <- (A7 i L). apply end_ext; [|exact L]. exact TE.
Qed.
End R.

Lemma F2_length {A B} (Q : A -> B -> Prop) l l' : Forall2 Q l l' -> length l = length l'.
Proof. induction 1; cbn; auto. Qed.

Section J.
Variables (M : machine xr) (r : rmach) (w : R) (N : nat).
Hypothesis MI : machine_is M r.
Hypothesis W0 : 0 < w.
Hypothesis RATE : forall i, (i < 3)%nat -> tick_rate r w i + INR N * creep r w i <= 1.
Notation eps := (fun i => 55/100 + INR N * creep r w i).
Notation power_up m := (c_init x_arith m (XF w)).

Lemma reference_traced ls wss mvs s : Forall2 written ls wss -> interp rs_start wss mvs s -> Forall (possible r) mvs -> (length mvs <= N)%nat ->
  (forall mv l, In mv mvs -> does r mv l -> short w l) ->
  exists c' m' outs, rprogram (gcode0 x_num) (sm_new x_num) ls = Ok (c', m', outs) /\ at_mm (s_cur (g_st c')) (rs_pos s) /\ length (sent outs) = length mvs /\
  forall m first ops, (m < two32)%N -> passed M (power_up m) (sent outs) first ops ->
  exists c recs legs, c_run x_arith M (power_up m) (script first ops) = Ok (c, recs) /\ Forall2 (does r) mvs legs /\
    INR (asked ops) * w <= elapsed w recs /\
    (forall p q, ops = p ++ q -> exists cp rp, c_run x_arith M (power_up m) (script first p) = Ok (cp, rp) /\
       within r eps (where_at (fun _ => 0) legs (elapsed w rp)) cp) /\
    (elapsed w recs <= total legs -> c_state c = ms_running) /\
    (total legs < elapsed w recs -> at_rest c w 1 /\ within r eps (rs_pos s) c) /\
    (forall a, (a < 3)%nat -> calm r w N a -> exists pend, (length pend <= 1)%nat /\
       net_dirs (pulses (N.of_nat a) false (replay 0 recs) ++ pend) = nth a (c_pos c) 0%Z /\ (total legs < elapsed w recs -> pend = [])) /\
    traced r w N m (fun _ => 0) legs c recs /\ chained (fun _ => 0) (map lg_path legs) /\
    (forall i, (i < 3)%nat -> end_of (fun _ => 0) (map lg_path legs) i = rs_pos s i).
Proof.
  intros F I PO LN SH.
  assert (KP : forall i, (i < 3)%nat -> 0 < rm_k r i) by (intros i Hi; apply (proj2 (proj2 MI)); auto).
  destruct (program_sim r KP ls wss _ _ rs_start mvs s F I PO (reached0 x_num (XF PI)) sim0) as (c' & m' & outs & Ps & A1 & A2 & A3 & A4 & A5 & A6 & A7).
  assert (LE : length (sent outs) = length mvs) by (rewrite (F2_length _ _ _ A3), (F2_length _ _ _ A4); reflexivity).
  exists c', m', outs. split; [exact A1|]. split; [apply (si_pos _ _ A2)|]. split; [exact LE|]. intros m first ops MT PA.
  assert (FB : Forall2 (brief r w 1) (sent outs) Ps).
  { clear - A3 A4 A5 SH. revert mvs A4 A5 SH. induction A3 as [|x P xs Ps EX A3 IH]; intros mvs A4 A5 SH; [constructor|].
    inversion A4 as [|mv ? mvs' ? T A4']; subst. cbn [combine] in A5. inversion A5 as [|? ? ? ? V A5']; subst. cbn [fst snd] in V. constructor.
    - intros l EL LO. apply (SH mv); [now left|]. subst P. destruct T as (T1 & T2). split; [exact T1|]. split; [exact T2|]. rewrite <- V. exact LO.
    - apply (IH mvs' A4' A5'). intros mv' l J D. apply (SH mv'); [now right|exact D]. }
  destruct (motions_run M r w N MI W0 RATE m (sent outs) Ps first ops A3 FB A6 ltac:(lia) MT PA) as (c & recs & legs & J1 & J2 & J3 & J4 & J5 & J6 & J7 & J8 & J9).
  exists c, recs, legs. split; [exact J1|]. split.
  { clear - J2 J3 A4 A5. subst Ps. revert mvs A4 A5. induction J3 as [|x l xs legs LO J3 IH]; intros mvs A4 A5; cbn [map combine] in *; inversion A4 as [|mv ? mvs' ? T A4']; subst; [constructor|].
    inversion A5 as [|? ? ? ? V A5']; subst. cbn [fst snd] in V. constructor; [|now apply IH].
    destruct T as (T1 & T2). split; [exact T1|]. split; [exact T2|]. rewrite <- V. exact LO. }
  split; [exact J4|]. split; [exact J5|]. split; [exact J6|]. split; [|split; [exact J8|split; [exact J9|rewrite J2; split; [exact A6|exact A7]]]].
  intros T. destruct (J7 T) as (K1 & K2). split; [exact K1|]. intros i L. rewrite <- (A7 i L). exact (K2 i L).
Qed.

Lemma reference_runs ls wss mvs s : Forall2 written ls wss -> interp rs_start wss mvs s -> Forall (possible r) mvs -> (length mvs <= N)%nat ->
  (forall mv l, In mv mvs -> does r mv l -> short w l) ->
  exists c' m' outs, rprogram (gcode0 x_num) (sm_new x_num) ls = Ok (c', m', outs) /\ at_mm (s_cur (g_st c')) (rs_pos s) /\ length (sent outs) = length mvs /\
  forall m first ops, (m < two32)%N -> passed M (power_up m) (sent outs) first ops ->
  exists c recs legs, c_run x_arith M (power_up m) (script first ops) = Ok (c, recs) /\ Forall2 (does r) mvs legs /\
    INR (asked ops) * w <= elapsed w recs /\
    (forall p q, ops = p ++ q -> exists cp rp, c_run x_arith M (power_up m) (script first p) = Ok (cp, rp) /\
       within r eps (where_at (fun _ => 0) legs (elapsed w rp)) cp) /\
    (elapsed w recs <= total legs -> c_state c = ms_running) /\
    (total legs < elapsed w recs -> at_rest c w 1 /\ within r eps (rs_pos s) c) /\
    (forall a, (a < 3)%nat -> calm r w N a -> exists pend, (length pend <= 1)%nat /\
       net_dirs (pulses (N.of_nat a) false (replay 0 recs) ++ pend) = nth a (c_pos c) 0%Z /\ (total legs < elapsed w recs -> pend = [])).
Proof.
  intros F I PO LN SH. destruct (reference_traced ls wss mvs s F I PO LN SH) as (c' & m' & outs & A1 & A2 & A3 & RUN). exists c', m', outs. split; auto. split; auto. split; auto.
  intros m first ops MT PA. destruct (RUN m first ops MT PA) as (c & recs & legs & J1 & J2 & J3 & J4 & J5 & J6 & J7 & _). exists c, recs, legs. auto 10.
Qed.

Lemma reference_lands ls wss mvs s a z : Forall2 written ls wss -> interp rs_start wss mvs s -> Forall (possible r) mvs -> (length mvs <= N)%nat ->
  (forall mv l, In mv mvs -> does r mv l -> short w l) ->
  (a < 3)%nat -> calm r w N a -> INR N * creep r w a <= 4/10 -> rm_k r a * rs_pos s a = IZR z ->
  exists c' m' outs, rprogram (gcode0 x_num) (sm_new x_num) ls = Ok (c', m', outs) /\
  forall m first ops, (m < two32)%N -> passed M (power_up m) (sent outs) first ops ->
  exists c recs legs, c_run x_arith M (power_up m) (script first ops) = Ok (c, recs) /\ Forall2 (does r) mvs legs /\
    (total legs < INR (asked ops) * w -> nth a (c_pos c) 0%Z = z /\ net_dirs (pulses (N.of_nat a) false (replay 0 recs)) = z).
Proof.
  intros F I PO LN SH Ha CA SM EZ. destruct (reference_runs ls wss mvs s F I PO LN SH) as (c' & m' & outs & A1 & _ & _ & RUN).
  exists c', m', outs. split; [exact A1|]. intros m first ops MT PA. destruct (RUN m first ops MT PA) as (c & recs & legs & K1 & K2 & K3 & K4 & K5 & K6 & K7).
  exists c, recs, legs. split; [exact K1|]. split; [exact K2|]. intros T. assert (T' : total legs < elapsed w recs) by lra.
  destruct (K6 T') as (_ & WI). destruct (K7 a Ha CA) as (pend & _ & PP & PN). rewrite (PN T'), app_nil_r in PP.
  specialize (WI a Ha). cbv beta in WI. rewrite EZ, <- minus_IZR, <- abs_IZR in WI.
  assert (L : (Z.abs (z - nth a (c_pos c) 0%Z) < 1)%Z) by (apply lt_IZR; lra). split; lia.
Qed.
End J.
