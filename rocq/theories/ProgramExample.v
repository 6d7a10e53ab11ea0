(** A concrete program in exact arithmetic: a traverse, then a half circle. *)
Require Import String List Arith NArith ZArith Bool Reals Lra Lia.
From Verif Require Import Base EventModel StepModel StepSpec Num NumR MotionModel CtrlModel CtrlSpec CtrlRSpec ProfileSpec GeomSpec GeomProofs RunSpec
  GcodeModel GcodeSpec GcodeRSpec GText GBlockProofs GParseProofs GHeadProofs GStageProofs GMeaningProofs GArcProofs GPathProofs GTotalProofs GLineProofs GExamples
  ProgramSpec ProgramProofs RunBriefProofs.
Import ListNotations.
Open Scope N_scope.

(** G2 X13 Y4 Z0 I5 J0 F600 *)
Definition half_text := [(cG, txt "2"); (cX, txt "13"); (cY, txt "4"); (cZ, txt "0"); (cI, txt "5"); (cJ, txt "0"); (cF, txt "600")].
Definition half_words := [wd cG 2 20; wd cX 13 0; wd cY 4 0; wd cZ 0 0; wd cI 5 0; wd cJ 0 0; wd cF 600 0].
Lemma half_read : line_words x_num (text_of half_text) half_words.
Proof. real_words; try reflexivity. exact (code_int cG 2 20 (or_introl eq_refl) ltac:(lra) ltac:(lia)). Qed.
Lemma half_consistent : consistent half_words.
Proof. consist. Qed.

Definition two_lines : list (list N) := [text_of line_text; text_of half_text].

Lemma modes_step l ws c m c' m' : line_words x_num l ws -> consistent ws -> sized (g_st c) -> rline c m l = Ok (c', m') ->
  ~ has ws cG 40 -> ~ has ws cG 900 -> ~ has ws cG 910 -> (forall l n v, In (l, n, v) unit_words -> ~ has ws l n) -> (forall l n v, In (l, n, v) coord_words -> ~ has ws l n) ->
  (forall l n v, In (l, n, v) plane_words -> ~ has ws l n) ->
  s_dist (g_st c') = s_dist (g_st c) /\ s_unit (g_st c') = s_unit (g_st c) /\ s_coord (g_st c') = s_coord (g_st c) /\ s_plane (g_st c') = s_plane (g_st c).
Proof.
  intros LW CO SZ E N4 N90 N91 NU NC NP.
  destruct (modal_lemma x_num (XF PI) _ _ _ _ _ _ LW CO SZ E) as (_ & B & _).
  destruct B as (U & P & DI & C & _); [intros (X & _); contradiction|].
  split; [|split; [|split]].
  - destruct DI as [(l1 & n1 & I1 & H1)|(X & _)]; [|exact X]. exfalso. cbn in I1. destruct I1 as [I1|[I1|[]]]; inversion I1; subst; contradiction.
  - destruct U as [(l1 & n1 & I1 & H1)|(X & _)]; [exfalso; eapply NU; eassumption|exact X].
  - destruct C as [(l1 & n1 & I1 & H1)|(X & _)]; [exfalso; eapply NC; eassumption|exact X].
  - destruct P as [(l1 & n1 & I1 & H1)|(X & _)]; [exfalso; eapply NP; eassumption|exact X].
Qed.

Lemma two_facts : exists c1 m1 c2 m2, rline start start_m (text_of line_text) = Ok (c1, m1) /\ rline c1 m1 (text_of half_text) = Ok (c2, m2) /\
  sm_type m1 = traverse /\ sm_type m2 = feedHelicalCW /\ announced c1 = true /\ announced c2 = true /\
  at_mm (s_cur (g_st c1)) (fun i => match i with 0%nat => 3 | 1%nat => 4 | _ => 0 end)%R /\
  at_mm (s_cur (g_st c2)) (fun i => match i with 0%nat => 13 | 1%nat => 4 | _ => 0 end)%R /\
  s_unit (g_st c2) = G21 /\ s_plane (g_st c2) = G17.
Proof.
  destruct linear_example as (c1 & m1 & E1 & MM1 & T1).
  assert (RE1 : reachedR c1 m1) by (eapply reached_line; [apply reached0|exact E1]).
  pose proof (reached_sized _ _ _ _ RE1) as SZ1.
  destruct (line_total x_num (XF PI) c1 m1 (text_of half_text) half_words SZ1 half_read) as ([c2 m2] & E2).
  { right. split; [no_word|]. split; [no_word|]. split; [no_word|]. split; [no_word|]. left. a_word0. }
  exists c1, m1, c2, m2. split; [exact E1|]. split; [exact E2|]. split; [exact T1|].
  destruct (motion_made x_num (XF PI) c1 m1 _ c2 m2 half_words cG 20 G2 half_read half_consistent SZ1 E2) as (MM2 & T2 & _); try no_word; [right; right; left; reflexivity|a_word0|].
  split; [exact T2|].
  split. { apply announced_spec. apply (announced_lemma x_num (XF PI) start start_m _ c1 m1 linear_words linear_read sized_start E1 ltac:(no_word)). exact MM1. }
  split. { apply announced_spec. apply (announced_lemma x_num (XF PI) c1 m1 _ c2 m2 half_words half_read SZ1 E2 ltac:(no_word)). exact MM2. }
  split. { apply (start_end _ _ _ _ 3 4 0 linear_read linear_consistent E1 MM1); try no_word; try no_words;
    [left; a_word1|left; a_word2|right; split; [no_letter|reflexivity]]. }
  destruct (modes_kept _ _ _ _ linear_read linear_consistent E1) as (D1 & U1 & C1 & P1); try no_word; try no_words.
  destruct (modes_step _ _ _ _ _ _ half_read half_consistent SZ1 E2) as (D2 & U2 & C2 & P2); try no_word; try no_words.
  assert (WC : s_wcs (g_st c2) = s_wcs (gstate0 x_num)) by (apply (reached_wcs x_num (XF PI) c2 m2); eapply reached_line; eauto).
  assert (OFF : forall i, (i < 3)%nat -> offset x_num (g_st c2) G54 i = XF 0).
  { intros i L. unfold offset. rewrite WC. destruct i as [|[|[|i]]]; [reflexivity..|lia]. }
  assert (AX : forall ch i g v, In (ch, i, g) axis_letters -> (i < 3)%nat -> has_value half_words ch (XF v) -> coord_at x_num (s_cur (g_st c2)) i = XF v).
  { intros ch i g v I L V. destruct (absolute_lemma x_num (XF PI) _ _ _ _ _ _ _ _ _ _ half_read SZ1 E2 MM2 ltac:(congruence) I V) as (A & _).
    rewrite A by no_word. rewrite C2, C1, (OFF i L), U2, U1. cbn. f_equal. lra. }
  split; [|split; congruence].
  intros i L. destruct i as [|[|[|i]]]; [apply (AX cX 0%nat LtX)|apply (AX cY 1%nat LtY)|apply (AX cZ 2%nat LtZ)|lia]; auto; try (cbn; tauto).
  - exists (wd cX 13 0). split; [cbn; tauto|split; reflexivity].
  - exists (wd cY 4 0). split; [cbn; tauto|split; reflexivity].
  - exists (wd cZ 0 0). split; [cbn; tauto|split; reflexivity].
Qed.

Lemma two_ok r : (forall i, (i < 3)%nat -> rm_k r i = 200%R) ->
  exists c2 m2 m1 outs, rprogram start start_m two_lines = Ok (c2, m2, outs) /\ program_ok r start start_m two_lines /\ sent outs = [m1; m2] /\
  (forall w P m, (1/60000 <= w)%R -> In m [m1; m2] -> describes m P -> path_ok P ->
     (forall i, (i < 3)%nat -> rm_v r i = 30 /\ rm_a r i = 200 /\ rm_d r i = -200)%R -> brief r w 1 m P) /\
  coord_at x_num (s_cur (g_st c2)) 0%nat = XF 13 /\ coord_at x_num (s_cur (g_st c2)) 1%nat = XF 4.
Proof.
  intros KR. destruct two_facts as (c1 & m1 & c2 & m2 & E1 & E2 & T1 & T2 & A1 & A2 & P1 & P2 & U2 & PL).
  assert (R1 : rprogram start start_m [text_of line_text] = Ok (c1, m1, [(c1, m1)])) by (cbn [g_run]; rewrite E1; reflexivity).
  exists c2, m2, m1, [(c1, m1); (c2, m2)].
  match goal with |- _ /\ ?X /\ _ => assert (PO : X) end.
  { assert (RB : forall i x d, (i < 3)%nat -> (0 <= x <= 13)%R -> (0 <= d <= 10)%R -> in_range (rm_k r i * (Rabs x + d))).
    { intros i x d Hi X D. rewrite KR by auto. unfold in_range. rewrite (Rabs_pos_eq x) by lra. rewrite Rabs_pos_eq by lra. lra. }
    intros pre l post d1 n1 o1 ws d2 n2 EL EP LW LN. destruct pre as [|l0 pre].
    + assert (X := f_equal (@hd _ []) EL). change (text_of line_text = l) in X. subst l. cbn [g_run] in EP. injection EP as <- <- <-. rewrite E1 in LN. injection LN as <- <-.
      rewrite (line_words_unique x_num _ _ _ LW linear_read). split; [no_word|]. intros _. exists (fun _ => 0%R), (fun i => match i with 0%nat => 3 | 1%nat => 4 | _ => 0 end)%R, 0%R.
      split; [exact start_finite|]. split; [exact P1|]. split; [|split].
      * left. split; [left; exact T1|]. split; [|reflexivity]. unfold distance, sq. apply sqrt_lt_R0. lra.
      * intros i Hi. split; apply RB; try lra; auto. destruct i as [|[|]]; lra.
      * rewrite T1. intros [X|[X|X]]; discriminate.
    + destruct pre as [|l1 pre]; [|exfalso; destruct pre; discriminate EL].
      assert (X := f_equal (@hd _ []) EL). change (text_of line_text = l0) in X. assert (Y := f_equal (fun x => hd [] (tl x)) EL). change (text_of half_text = l) in Y. subst l l0. rewrite R1 in EP. injection EP as <- <- <-.
      rewrite E2 in LN. injection LN as <- <-. rewrite (line_words_unique x_num _ _ _ LW half_read). split; [no_word|]. intros _.
      exists (fun i => match i with 0%nat => 3 | 1%nat => 4 | _ => 0 end)%R, (fun i => match i with 0%nat => 13 | 1%nat => 4 | _ => 0 end)%R, 10%R.
      split; [exact P1|]. split; [exact P2|]. split; [|split].
      * right. split; [left; exact T2|]. exists 0%nat, 1%nat. split; [rewrite PL; reflexivity|]. left. exists 5%R, 0%R.
        split; [exists (wd cI 5 0); split; [cbn; tauto|split; reflexivity]|]. split; [exists (wd cJ 0 0); split; [cbn; tauto|split; reflexivity]|].
        cbv zeta. rewrite U2. unfold mm, dist2, sq. split; [lra|]. split; [lra|].
        replace ((3 - (3 + 5)) * (3 - (3 + 5)) + (4 - (4 + 0)) * (4 - (4 + 0)))%R with (5 * 5)%R by ring. rewrite sqrt_square; lra.
      * intros i Hi. split; apply RB; try lra; auto; destruct i as [|[|]]; lra.
      * intros _. exists 600%R. split; [lra|]. left. split; [exists (wd cF 600 0); split; [cbn; tauto|split; reflexivity]|].
        cbn [nltb x_num nofZ xltb]. unfold rltb. destruct (Rlt_dec (IZR 0) 600); [reflexivity|lra]. }
  split; [|split; [exact PO|split; [|split; [|split]]]].
  - unfold two_lines. cbn [g_run]. rewrite E1. cbn [rbind fst snd]. rewrite E2. reflexivity.
  - unfold sent. cbn [filter fst]. rewrite A1, A2. reflexivity.
  - intros tk P m W IM DS OK MA.
    assert (KP : forall i, (i < 3)%nat -> (0 < rm_k r i)%R) by (intros i Hi; rewrite KR by auto; lra).
    assert (RE1 : reachedR c1 m1) by (eapply reached_line; [apply reached0|exact E1]).
    assert (LEN : sm_length m = XF (pa_len P)) by apply DS. assert (LP : (0 < pa_len P)%R) by apply OK.
    assert (WW : (71582 * 71582 <= 4294967295 * tk * (4294967295 * tk))%R) by (apply Rmult_le_compat; lra).
    destruct IM as [<-|[<-|[]]].
    + destruct (block_path r KP start start_m _ linear_words c1 m1 (reached0 x_num (XF PI)) E1 linear_read) as (p & q & P0 & AP & AQ & G & AS & EX); [|exact A1|].
      { apply (PO [] (text_of line_text) [text_of half_text] start start_m []); auto. exact linear_read. }
      assert (NA : pa_arc P = None).
      { destruct (pa_arc P) as [a|] eqn:PA; [|reflexivity]. exfalso. destruct DS as (_ & _ & _ & DA). rewrite PA in DA. destruct DA as (DA & _).
        destruct G as ((_ & _ & _ & D0) & _). destruct (pa_arc P0) as [a0|]; [|].
        - destruct AS as ([X|X] & _); congruence.
        - destruct OK as (_ & OK). cbv zeta in OK. rewrite PA in OK. destruct OK as (_ & L0 & _). destruct D0 as [D0 _]. lia. }
      assert (L5 : pa_len P = 5%R).
      { destruct (line_lemma start start_m _ c1 m1 sized_start (reached_finite _ _ (reached0 x_num (XF PI))) (reached_radius _ _ (reached0 x_num (XF PI))) E1
           (proj1 (announced_lemma x_num (XF PI) start start_m _ c1 m1 linear_words linear_read sized_start E1 ltac:(no_word)) (proj1 (announced_spec c1) A1)) (or_introl T1))
          as (p1 & q1 & HP1 & HQ1 & HL & _).
        rewrite HL in LEN. injection LEN as <-. unfold distance.
        rewrite !(at_mm_unique _ _ _ HQ1 P1), !(at_mm_unique _ _ _ HP1 start_finite) by lia. unfold sq.
        replace (_ + _)%R with (5 * 5)%R by ring. apply sqrt_square. lra. }
      apply brief_bound with 10%R 200%R; auto; try lra.
      * intros i Hi. destruct (MA i Hi) as (-> & _). lra.
      * intros a i X. congruence.
      * intros x X. destruct (speed_lemma start start_m _ c1 m1 linear_words linear_read sized_start E1
           (proj1 (announced_lemma x_num (XF PI) start start_m _ c1 m1 linear_words linear_read sized_start E1 ltac:(no_word)) (proj1 (announced_spec c1) A1))) as [VT _].
        rewrite (VT T1) in X. discriminate.
      * intros i Hi. destruct (MA i Hi) as (_ & -> & ->). lra.
    + pose proof (reached_sized _ _ _ _ RE1) as SZ1.
      assert (MM : made_motion c2 m2) by (apply (proj1 (announced_lemma x_num (XF PI) c1 m1 _ c2 m2 half_words half_read SZ1 E2 ltac:(no_word))); apply announced_spec; exact A2).
      destruct (arc_offset_lemma c1 m1 _ c2 m2 half_words 0%nat 1%nat 5 0 half_read SZ1 (reached_finite _ _ RE1) E2 MM (or_introl T2)
          ltac:(rewrite PL; reflexivity) ltac:(exists (wd cI 5 0); split; [cbn; tauto|split; reflexivity]) ltac:(exists (wd cJ 0 0); split; [cbn; tauto|split; reflexivity]))
        as (p & q & sa & da & HP & HQ & AI & SW & _ & GO).
      cbv zeta in *. rewrite U2 in *. unfold mm in *. rewrite !(at_mm_unique _ _ _ HP P1), !(at_mm_unique _ _ _ HQ P2) in * by lia.
      assert (R5 : sqrt (dist2 (3 + 5) (4 + 0) 3 4) = 5%R).
      { unfold dist2, sq. replace (_ + _)%R with (5 * 5)%R by ring. apply sqrt_square. lra. }
      rewrite R5 in *. destruct GO as (P0 & G & PA0); [lra|unfold dist2, sq; ring|].
      rewrite T2 in SW. cbn [is_cw] in SW. destruct SW as (_ & _ & DA).
      destruct G as (DS0 & OK0 & GO).
      assert (LE : pa_len P = pa_len P0) by (destruct DS0 as (L0 & _); congruence).
      assert (D2 : pa_delta P0 2%nat = 0%R).
      { destruct (GO 2%nat ltac:(lia)) as [G0 G1]. unfold path_pos in G0, G1. rewrite PA0 in G0, G1. cbn [Nat.eqb ar_0 ar_1] in G0, G1. unfold linear_pos in *.
        rewrite (at_mm_unique _ _ _ HP P1) in G0 by lia. rewrite (at_mm_unique _ _ _ HQ P2) in G1 by lia. cbn in G0, G1.
        assert (0 < pa_len P0)%R by apply OK0.
        replace (pa_start P0 2%nat + pa_delta P0 2%nat * (0 / pa_len P0))%R with (pa_start P0 2%nat) in G0 by (field; lra).
        replace (pa_start P0 2%nat + pa_delta P0 2%nat * (pa_len P0 / pa_len P0))%R with (pa_start P0 2%nat + pa_delta P0 2%nat)%R in G1 by (field; lra). lra. }
      assert (L40 : (pa_len P <= 40)%R).
      { rewrite LE. destruct OK0 as (LP0 & OK0). cbv zeta in OK0. unfold on_arc in OK0. rewrite PA0 in OK0. cbn [ar_0 ar_1 ar_r ar_da Nat.eqb orb] in OK0. destruct OK0 as (_ & _ & _ & _ & OK0).
        rewrite D2 in OK0. unfold sq in OK0. pose proof PI_4. assert (S : (5 * da * (5 * da) <= 40 * 40)%R).
        { replace (5 * da * (5 * da))%R with ((5 * - da) * (5 * - da))%R by ring. apply Rmult_le_compat; lra. }
        destruct (Rle_lt_dec (pa_len P0) 40) as [|B]; auto. exfalso. assert (40 * 40 < pa_len P0 * pa_len P0)%R by (apply Rmult_le_0_lt_compat; lra). lra. }
      destruct (speed_lemma c1 m1 _ c2 m2 half_words half_read SZ1 E2 MM) as [_ VF].
      destruct (VF ltac:(rewrite T2; right; left; reflexivity) 600%R (pa_len P)) as [V _]; [|exact LEN|].
      { left. split; [exists (wd cF 600 0); split; [cbn; tauto|split; reflexivity]|]. cbn [nltb x_num nofZ xltb]. unfold rltb. destruct (Rlt_dec (IZR 0) 600); [reflexivity|lra]. }
      rewrite U2 in V. unfold mm in V.
      assert (ARC : forall a, pa_arc P = Some a -> ar_r a = 5%R).
      { intros a PA. destruct DS as (_ & _ & _ & X). rewrite PA in X. destruct DS0 as (_ & _ & _ & Y). rewrite PA0 in Y. cbn [ar_r] in Y.
        assert (Z : XF (ar_r a) = XF 5) by (transitivity (sm_radius m2); [symmetry; apply X|apply Y]). injection Z as Z. exact Z. }
      apply brief_bound with (Rmin 10 (10 * pa_len P)) 200%R; auto; try lra.
      * unfold Rmin. destruct (Rle_dec 10 (10 * pa_len P)); lra.
      * intros i Hi. destruct (MA i Hi) as (-> & _). pose proof (Rmin_l 10 (10 * pa_len P)). lra.
      * intros a i PA Hi. destruct (MA i Hi) as (_ & -> & _). rewrite (ARC a PA). pose proof (Rmin_l 10 (10 * pa_len P)).
        assert (0 < Rmin 10 (10 * pa_len P))%R by (unfold Rmin; destruct (Rle_dec 10 (10 * pa_len P)); lra).
        assert (Rmin 10 (10 * pa_len P) * Rmin 10 (10 * pa_len P) <= 10 * 10)%R by (apply Rmult_le_compat; lra). lra.
      * intros x X. rewrite V in X. injection X as <-. pose proof (Rmin_l 10 (10 * pa_len P)). pose proof (Rmin_r 10 (10 * pa_len P)). destruct (s_feed (g_st c2)); lra.
      * intros i Hi. destruct (MA i Hi) as (_ & -> & ->). lra.
      * unfold Rmin. destruct (Rle_dec 10 (10 * pa_len P)); [lra|]. replace (2 * pa_len P / (10 * pa_len P))%R with (/ 5)%R by (field; lra). lra.
  - exact (P2 0%nat ltac:(lia)).
  - exact (P2 1%nat ltac:(lia)).
Qed.
