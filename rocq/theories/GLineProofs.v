(** Reachable parser states, lines without undefined behaviour, and lines that make a motion. *)
Require Import String List Arith NArith ZArith Bool Reals Lra Lia.
From Verif Require Import Base Num NumR MotionModel GcodeModel GcodeSpec GcodeRSpec GText GBlockProofs GParseProofs GHeadProofs GStageProofs
  GMeaningProofs GArcProofs GPathProofs GTotalProofs CtrlTrackProofs.
Import ListNotations.
Open Scope N_scope.

Section P.
Context {D : Type} (K : num D) (pi : D).
Local Notation word := (@word D).
Local Notation gcode := (@gcode D).

(** An invariant of lines holds in every reached state. *)
Lemma run_inv (I : gcode -> smotion D -> Prop) : (forall c m l c' m', I c m -> g_line K pi c m l = Ok (c', m') -> I c' m') ->
  forall ls c m c' m' outs, I c m -> g_run K pi c m ls = Ok (c', m', outs) -> I c' m'.
Proof.
  intros ST. induction ls as [|l ls IH]; intros c m c' m' outs H0 H; cbn [g_run] in H.
  - injection H as <- <- _. exact H0.
  - destruct (g_line K pi c m l) as [[c1 m1]|] eqn:E; [|discriminate]. cbn [rbind fst snd] in H.
    destruct (g_run K pi c1 m1 ls) as [[[c2 m2] o2]|] eqn:E2; [|discriminate]. cbn [rbind fst snd] in H.
    injection H as <- <- _. eapply IH; [|exact E2]. eapply ST; eassumption.
Qed.
Lemma reached_inv (I : gcode -> smotion D -> Prop) : I (gcode0 K) (sm_new K) ->
  (forall c m l c' m', I c m -> g_line K pi c m l = Ok (c', m') -> I c' m') -> forall c m, reached K pi c m -> I c m.
Proof. intros H0 ST c m (ls & outs & H). eapply run_inv; eassumption. Qed.

Lemma reached_sized c m : reached K pi c m -> sized (g_st c).
Proof.
  apply (reached_inv (fun c _ => sized (g_st c))); [exact (sized0 K)|].
  intros c1 m1 l c' m' H E. apply (proj1 (sized_line K pi _ _ _ _ _ H E)).
Qed.
Lemma reached0 : reached K pi (gcode0 K) (sm_new K).
Proof. exists [], []. reflexivity. Qed.
Lemma run_app l1 l2 : forall c m, g_run K pi c m (l1 ++ l2) =
  (x <- g_run K pi c m l1 ;; y <- g_run K pi (fst (fst x)) (snd (fst x)) l2 ;; Ok (fst y, snd x ++ snd y)).
Proof.
  induction l1 as [|l l1 IH]; intros c m; cbn [app g_run rbind fst snd].
  - destruct (g_run K pi c m l2) as [[p q]|]; reflexivity.
  - destruct (g_line K pi c m l) as [[c1 m1]|]; [|reflexivity]. cbn [rbind fst snd]. rewrite IH.
    destruct (g_run K pi c1 m1 l1) as [[[c2 m2] o2]|]; [|reflexivity]. cbn [rbind fst snd].
    destruct (g_run K pi c2 m2 l2) as [[p q]|]; reflexivity.
Qed.
Lemma reached_line c m l c' m' : reached K pi c m -> g_line K pi c m l = Ok (c', m') -> reached K pi c' m'.
Proof.
  intros (ls & outs & H) E. exists (ls ++ [l]), (outs ++ [(c', m')]). rewrite run_app, H. cbn [rbind fst snd g_run]. rewrite E. reflexivity.
Qed.
(** Work offsets never change. *)
Lemma reached_wcs c m : reached K pi c m -> s_wcs (g_st c) = s_wcs (gstate0 K).
Proof.
  intros H. apply (reached_inv (fun c _ => sized (g_st c) /\ s_wcs (g_st c) = s_wcs (gstate0 K))) in H; [tauto|split; [apply sized0|reflexivity]|].
  intros c1 m1 l c' m' (SZ & EQ) E. destruct (sized_line K pi _ _ _ _ _ SZ E). split; [assumption|congruence].
Qed.

Lemma center_words (b : @block D) : counted b -> no_center b <-> (forall ch, In ch center_letters -> ~ has_letter (b_words b) ch).
Proof.
  intros (_ & _ & _ & _ & _ & _ & CO & CR). unfold no_center, hasOffset, hasRadius. rewrite CO, CR, !N.ltb_ge, !N.le_0_r. split.
  - intros (A & B) ch I (w & Iw & E).
    assert (X : ch = cR \/ In ch [cI; cJ; cK]) by (unfold center_letters in I; cbn [In] in *; intuition auto).
    destruct X as [->|X].
    + cut (0 < cnt (let_in [cR]) (b_words b)); [lia|]. apply cnt_pos. exists w. split; [exact Iw|]. unfold tst. apply let_in_spec. rewrite E. now left.
    + cut (0 < cnt (let_in [cI; cJ; cK]) (b_words b)); [lia|]. apply cnt_pos. exists w. split; [exact Iw|]. unfold tst. apply let_in_spec. now rewrite E.
  - intros H. split.
    + destruct (N.eq_0_gt_0_cases (cnt (let_in [cI; cJ; cK]) (b_words b))) as [X|X]; [exact X|].
      apply cnt_pos in X. destruct X as (w & Iw & E). unfold tst in E. apply let_in_spec in E. exfalso. apply (H (w_letter w)); [clear -E; unfold tst, center_letters in *; cbn [In] in *; tauto|].
      exists w. auto.
    + destruct (N.eq_0_gt_0_cases (cnt (let_in [cR]) (b_words b))) as [X|X]; [exact X|].
      apply cnt_pos in X. destruct X as (w & Iw & E). unfold tst in E. apply let_in_spec in E. exfalso. apply (H (w_letter w)); [clear -E; unfold tst, center_letters in *; cbn [In] in *; tauto|].
      exists w. auto.
Qed.

Lemma line_total c m l ws : sized (g_st c) -> line_words K l ws ->
  ((forall ch, In ch center_letters -> ~ has_letter ws ch) \/
   (~ has ws cG 0 /\ ~ has ws cG 10 /\ ~ has ws cG 40 /\ ~ has ws cG 530 /\
    (has ws cG 20 \/ has ws cG 30 \/ s_motion (g_st c) = G2 \/ s_motion (g_st c) = G3))) ->
  exists r, g_line K pi c m l = Ok r.
Proof.
  intros SZ (b & E & <-) H. unfold g_line, g_getBlock. rewrite E. cbn [rbind].
  assert (C : counted b) by (apply (counted_line K); exists l; exact E).
  apply block_total; cbn [g_block g_st]; [exact C|exact (proj1 SZ)|].
  destruct H as [H|H]; [left; now apply center_words|right; exact H].
Qed.
Lemma run_total ls : forall c m, sized (g_st c) ->
  Forall (fun l => exists ws, line_words K l ws /\ forall ch, In ch center_letters -> ~ has_letter ws ch) ls ->
  exists r, g_run K pi c m ls = Ok r.
Proof.
  induction ls as [|l ls IH]; intros c m SZ F; cbn [g_run]; [eauto|]. inversion F as [|? ? (ws & LW & NC) F']; subst.
  destruct (line_total c m l ws SZ LW (or_introl NC)) as ([c1 m1] & E). rewrite E. cbn [rbind fst snd].
  destruct (IH c1 m1) as (r & ER); [exact (proj1 (sized_line K pi _ _ _ _ _ SZ E))|exact F'|]. rewrite ER. cbn [rbind]. eauto.
Qed.

(** When words do not collide. *)
Lemma consistent_cnt (ws : list word) : (forall g, cnt (key_in (group_words g)) ws <= 1) ->
  (forall l g, In (l, g) value_letters -> cnt (let_in [l]) ws <= 1) -> consistent ws.
Proof.
  intros A B. split.
  - intros (g & H). specialize (A g). cut (1 < cnt (key_in (group_words g)) ws); [lia|]. apply cnt_two.
    refine (proj1 (two_of_iff K _ _ ws _) H). intros w. unfold tst, in_group. now rewrite key_in_spec.
  - intros (l & g & I & H). specialize (B l g I). cut (1 < cnt (let_in [l]) ws); [lia|]. apply cnt_two.
    refine (proj1 (two_of_iff K _ _ ws _) H). intros w. unfold tst. rewrite let_in_spec. cbn. intuition.
Qed.

(** A block with G0, G2 or G3, without G4, G53 and collision, makes that motion. *)
Lemma motion_made c m l c' m' ws l0 n g : line_words K l ws -> consistent ws -> sized (g_st c) -> g_line K pi c m l = Ok (c', m') ->
  ~ has ws cG 40 -> ~ has ws cG 530 -> ~ has ws cG 10 -> In (l0, n, g) motion_words -> has ws l0 n ->
  made_motion c' m' /\ sm_type m' = mtype g /\ s_motion (g_st c') = g.
Proof.
  intros LW CO SZ H N4 N53 N1 I HS.
  assert (ND : ~ dwell K ws) by (intros (X & _); contradiction).
  destruct (modal_lemma K pi c m l c' m' ws LW CO SZ H) as (_ & B & _). destruct (B ND) as (_ & _ & _ & _ & FM). specialize (FM N53).
  assert (EM : s_motion (g_st c') = g).
  { destruct FM as [(l1 & n1 & I1 & H1)|(_ & X)]; [|exfalso; eapply X; eassumption].
    assert (U : forall l1 n1 l2 n2 v1 v2, In (l1, n1, v1) motion_words -> In (l2, n2, v2) motion_words ->
       has ws l1 n1 -> has ws l2 n2 -> v1 = v2).
    { clear -CO. intros l1 n1 l2 n2 v1 v2 I1 I2 H1 H2.
      assert (X : (l1, n1) = (l2, n2)).
      { destruct CO as (NG & _). destruct H1 as (w1 & W1 & A1 & B1). destruct H2 as (w2 & W2 & A2 & B2).
        assert (G1 : in_group MgMotion w1) by (unfold in_group; rewrite A1, B1; cbn [In motion_words group_words] in *; intuition congruence).
        assert (G2 : in_group MgMotion w2) by (unfold in_group; rewrite A2, B2; cbn [In motion_words group_words] in *; intuition congruence).
        assert (Q : w1 = w2 \/ two_of (in_group MgMotion) ws).
        { clear -W1 W2 G1 G2. apply in_split in W1. destruct W1 as (p & q & ->). apply in_app_or in W2. destruct W2 as [W2|[W2|W2]].
          - right. apply in_split in W2. destruct W2 as (p1 & p2 & ->). exists p1, w2, p2, w1, q. rewrite <- app_assoc. auto.
          - left. exact W2.
          - right. apply in_split in W2. destruct W2 as (p1 & p2 & ->). exists p, w1, p1, w2, p2. auto. }
        destruct Q as [Q|Q]; [subst w2; congruence|exfalso; apply NG; now exists MgMotion]. }
      injection X as -> ->. cbn [In motion_words] in I1, I2. clear -I1 I2.
      destruct I1 as [I1|[I1|[I1|[I1|[]]]]], I2 as [I2|[I2|[I2|[I2|[]]]]]; injection I1; injection I2; intros; subst; congruence || discriminate. }
    exact (U _ _ _ _ _ _ I1 I H1 HS). }
  destruct (line_motion K pi c m l c' m' ws LW SZ H) as [(NM & _ & NR)|(MM & _ & (sP & b & t & KO) & _)].
  - exfalso. destruct (line_cases K pi c m l c' m' ws LW SZ H) as [(NC & _)|(_ & b & c0 & cH & cM & C & EB & E1 & E0 & HH & HM & O)]; [contradiction|].
    destruct O as [x c1 m1 D1 _ _ _ _ _|g1 c1 m1 _ D2 _ _ _ _|g1 s1 c1 m1 _ _ _ _ _ _ _ _ _ D10|c1 m1 _ _ _ D4 _ _ _ _|c1 m1 _ _ D3 _ _ _ _ _].
    + contradiction.
    + contradiction.
    + contradiction.
    + contradiction.
    + exact (D3 _ _ _ I HS).
  - split; [exact MM|]. split; [|exact EM].
    destruct (k_type _ _ _ _ _ _ _ _ _ _ KO) as [(X & _)|[(_ & X & _)|(_ & _ & ET)]]; [contradiction|contradiction|].
    destruct (calcMotion_fields K pi _ _ _ _ _ (k_calc _ _ _ _ _ _ _ _ _ _ KO)) as (T & _). rewrite T, <- EM. exact ET.
Qed.
End P.

(** ** Exact arithmetic *)
Notation reachedR := (reached x_num (XF PI)).
Lemma reached_finite c m : reachedR c m -> finite_state (g_st c).
Proof.
  intros H. apply (reached_inv x_num (XF PI) (fun c _ => sized (g_st c) /\ finite_state (g_st c))) in H; [tauto|split; [apply sized0|exact finite0]|].
  intros c1 m1 l c' m' (SZ & FS) E. split; [exact (proj1 (sized_line _ _ _ _ _ _ _ SZ E))|exact (finite_line _ _ _ _ _ FS SZ E)].
Qed.
Lemma reached_radius c m : reachedR c m -> finite_radius m.
Proof.
  intros H. apply (reached_inv x_num (XF PI) (fun c m => sized (g_st c) /\ finite_state (g_st c) /\ finite_radius m)) in H; [tauto|split; [apply sized0|split; [exact finite0|eexists; reflexivity]]|].
  intros c1 m1 l c' m' (SZ & FS & FR) E. split; [exact (proj1 (sized_line _ _ _ _ _ _ _ SZ E))|].
  split; [exact (finite_line _ _ _ _ _ FS SZ E)|exact (radius_line _ _ _ _ _ SZ FS FR E)].
Qed.

(** Reading concrete words. *)
Definition real_word (lt : N * list N) (w : @word xr) : Prop :=
  w_letter w = fst lt /\ number_of x_num (snd lt) = w_number w /\ int_of x_num (fst lt) (w_number w) = Ok (w_int w).
Lemma read_words ts ws : Forall text_word ts -> (length ts <= 16)%nat -> (length (text_of ts) <= 255)%nat ->
  Forall2 real_word ts ws -> line_words x_num (text_of ts) ws.
Proof.
  intros TW L LT F. destruct (split_ok x_num ts TW L LT) as (b & E).
  { intros l t I _. revert I. clear -F. induction F as [|[l0 t0] w ts ws (A & B & C) F IH]; intros I; [destruct I|].
    destruct I as [I|I]; [|auto]. injection I as -> ->. cbn [fst snd] in *. rewrite B. eauto. }
  exists b. split; [exact E|]. pose proof (split_lemma x_num ts b TW L E) as F'. clear -F F'. revert F'. generalize (b_words b).
  induction F as [|lt w ts ws (A & B & C) F IH]; intros l F'; inversion F' as [|? w' ? ? (A' & B' & C') F'']; subst; [reflexivity|].
  f_equal; [|now apply IH]. rewrite B in B'. destruct w, w'. cbn in *. subst. congruence.
Qed.
Lemma code_int l x z : l = cG \/ l = cM -> (x * 10 = IZR z)%R -> (0 <= z < 4294967296)%Z -> int_of x_num l (XF x) = Ok (Z.to_N z).
Proof.
  intros HL HX HZ. unfold int_of. replace ((l =? cG) || (l =? cM)) with true by (destruct HL as [-> | ->]; reflexivity).
  change (ntoZ x_num (nmul x_num (XF x) (nofZ x_num 10))) with (Some (rtrunc (x * 10))%R). rewrite HX, rtrunc_IZR.
  replace ((0 <=? z) && (z <? 4294967296))%Z with true by lia. reflexivity.
Qed.

(** ** Collisions *)
Section Q.
Context {D : Type} (K : num D) (pi : D).
Lemma two_has (ws : list (@word D)) (P : @word D -> Prop) w1 w2 : In w1 ws -> In w2 ws -> w1 <> w2 -> P w1 -> P w2 -> two_of P ws.
Proof.
  intros W1 W2 NE G1 G2. apply in_split in W1. destruct W1 as (p & q & ->). apply in_app_or in W2. destruct W2 as [W2|[W2|W2]].
  - apply in_split in W2. destruct W2 as (p1 & p2 & ->). exists p1, w2, p2, w1, q. rewrite <- app_assoc. auto.
  - contradiction.
  - apply in_split in W2. destruct W2 as (p1 & p2 & ->). exists p, w1, p1, w2, p2. auto.
Qed.
Lemma set_collision T a b (ws : list (@word D)) : In T modal_sets -> In a T -> In b T -> a <> b ->
  has ws (fst a) (snd a) -> has ws (fst b) (snd b) -> group_collision ws.
Proof.
  intros IT Ia Ib NE (w1 & I1 & A1 & B1) (w2 & I2 & A2 & B2).
  assert (X : exists g, In a (group_words g) /\ In b (group_words g)).
  { unfold modal_sets in IT. cbn [In] in IT.
    destruct IT as [<-|[<-|[<-|[<-|[<-|[<-|[<-|[<-|[<-|[]]]]]]]]]];
    [exists MgMotion|exists MgPlane|exists MgDistance|exists MgSpindle|exists MgUnit|exists MgFeedRate|exists MgCoordinateSet|exists MgCoolantMist|exists MgCoolantFlood];
    cbn [In group_words] in *; split; tauto. }
  destruct X as (g & Ga & Gb). exists g. apply (two_has ws (in_group g) w1 w2); try assumption.
  - intros ->. apply NE. destruct a, b. cbn [fst snd] in *. congruence.
  - unfold in_group. rewrite A1, B1. now destruct a.
  - unfold in_group. rewrite A2, B2. now destruct b.
Qed.
Lemma line_collision c m l (ws : list (@word D)) : line_words K l ws ->
  (group_collision ws -> exists b, g_line K pi c m l = Ok (mkGC b (g_st c) RError ModalGroupCollision, sm_with_type mt_none m)) /\
  (~ group_collision ws -> letter_collision ws ->
   exists b, g_line K pi c m l = Ok (mkGC b (g_st c) RError ValueWordCollision, sm_with_type mt_none m)).
Proof.
  intros (b & E & <-). unfold g_line, g_getBlock. rewrite E. cbn [rbind].
  destruct (collision_lemma K pi b (g_st c) (g_res c) (g_err c) m (ex_intro _ l E)) as (A & B).
  split; intros; exists b; auto.
Qed.

(** ** No feed rate *)
Lemma no_feed_lemma c m l c' m' ws : line_words K l ws -> consistent ws -> sized (g_st c) -> g_line K pi c m l = Ok (c', m') ->
  has ws cG 10 -> ~ has ws cG 40 -> ~ has ws cG 530 -> ~ has_letter ws cF -> nltb K (nofZ K 0) (letter K (g_st c) LtF) = false ->
  (forall l n v, In (l, n, v) feed_words -> ~ has ws l n) ->
  g_res c' = RError /\ g_err c' = InvalidFeedrate /\ s_cur (g_st c') = s_cur (g_st c) /\ ~ made_motion c' m'.
Proof.
  intros LW CO SZ H H1 N4 N53 NF F0 NM.
  assert (ND : ~ dwell K ws) by (intros (X & _); contradiction).
  destruct (line_motion K pi c m l c' m' ws LW SZ H) as [(A & B & _)|(_ & _ & (sP & b & t & KO) & _)].
  2:{ exfalso. pose proof (k_G1 _ _ _ _ _ _ _ _ _ _ KO H1 ND N53) as P.
      destruct (k_F _ _ _ _ _ _ _ _ _ _ KO) as [((w & I & E & _) & _)|([((l0 & n & v & I & X) & _)|(_ & E)] & _)].
      - apply NF. exists w. auto.
      - exact (NM _ _ _ I X).
      - rewrite E in P. congruence. }
  destruct (line_cases K pi c m l c' m' ws LW SZ H) as [(X & _)|(_ & b & c0 & cH & cM & _ & _ & _ & _ & _ & _ & O)]; [contradiction|].
  destruct O as [x c1 m1 D1 _ _ _ _ _|g1 c1 m1 _ D2 _ _ _ _|g1 s1 c1 m1 _ _ _ _ _ CM _ _ _ R|c1 m1 _ _ _ _ _ _ E1 E2|c1 m1 _ _ D3 _ _ _ _ _]; try contradiction.
  - exfalso. apply A. destruct (calcMotion_fields K pi _ _ _ _ _ CM) as (T & _). split; [rewrite T; destruct g1; discriminate|congruence].
  - auto.
  - exfalso. eapply D3; [|exact H1]. right. left. reflexivity.
Qed.

Lemma plain_tracked c m : nadd K (nofZ K 0) (nofZ K 0) = nofZ K 0 -> plain_run K pi c m -> sized (g_st c) /\ tracked K (g_st c).
Proof.
  intros Z. induction 1 as [|c m l ws c' m' _ (SZ & TR) LW H (NF & IF)].
  - split; [apply sized0|]. split; [reflexivity|]. intros l i g I. cbn [In axis_letters] in I.
    destruct I as [E|[E|[E|[]]]]; injection E as <- <- <-; symmetry; exact Z.
  - split; [exact (proj1 (sized_line K pi _ _ _ _ _ SZ H))|]. exact (proj1 (unnamed_lemma K pi _ _ _ _ _ _ LW SZ H NF TR IF)).
Qed.
Lemma plain_unnamed c m l ws c' m' ch i g : nadd K (nofZ K 0) (nofZ K 0) = nofZ K 0 -> plain_run K pi c m -> line_words K l ws ->
  g_line K pi c m l = Ok (c', m') -> plain_line ws c' -> In (ch, i, g) axis_letters -> ~ has_letter ws ch ->
  coord_at K (s_cur (g_st c')) i = coord_at K (s_cur (g_st c)) i.
Proof.
  intros Z PR LW H (NF & IF) I N. destruct (plain_tracked c m Z PR) as (SZ & TR).
  exact (proj2 (unnamed_lemma K pi _ _ _ _ _ _ LW SZ H NF TR IF) ch i g I N).
Qed.
End Q.
