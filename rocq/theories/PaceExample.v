(** A concrete slow program. *)
Require Import String List Arith NArith ZArith Bool Reals Lra Lia.
From Verif Require Import Base EventModel StepModel StepSpec Num NumR MotionModel CtrlModel CtrlSpec CtrlRSpec ProfileSpec GeomSpec GeomProofs RunSpec RunBriefProofs
  GcodeModel GcodeSpec GcodeRSpec GText ProgramSpec ReferenceSpec ReferenceExample FlowModel FlowSpec PaceSpec PaceFlowProofs.
Import ListNotations.
Open Scope R_scope.

Definition pc_lines : list (list N) := [txt "G1X3Y4F300"; txt "G2X13I5J0"; txt "G1X3Y14"].
Definition pc_words : list (list rword) :=
  [[(aG, 1); (axis_letter 0, 3); (axis_letter 1, 4); (aF, 300)];
   [(aG, 2); (axis_letter 0, 13); (centre_letter 0, 5); (centre_letter 1, 0)];
   [(aG, 1); (axis_letter 0, 3); (axis_letter 1, 14)]].
Definition pc_moves : list move :=
  [mkMove Straight (fun _ => 0) (pt 3 4) (0, 1)%nat None 300 false;
   mkMove Clockwise (pt 3 4) (pt 13 4) (0, 1)%nat (Some (Offsets 5 0)) 300 false;
   mkMove Straight (pt 13 4) (pt 3 14) (0, 1)%nat None 300 false].
Definition pc_end : rstate := mkRS Straight (0, 1)%nat false (Some 300) (pt 3 14).

Lemma pc_written : Forall2 written pc_lines pc_words.
Proof.
  unfold pc_lines, pc_words. repeat apply Forall2_cons; [..|apply Forall2_nil].
  - as_written [(aG, txt "1"); (axis_letter 0, txt "3"); (axis_letter 1, txt "4"); (aF, txt "300")]; [whole 1%N|whole 3%N|whole 4%N|whole 300%N].
  - as_written [(aG, txt "2"); (axis_letter 0, txt "13"); (centre_letter 0, txt "5"); (centre_letter 1, txt "0")]; [whole 2%N|whole 13%N|whole 5%N|whole 0%N].
  - as_written [(aG, txt "1"); (axis_letter 0, txt "3"); (axis_letter 1, txt "14")]; [whole 1%N|whole 3%N|whole 14%N].
Qed.
Lemma pc_interp : interp rs_start pc_words pc_moves pc_end.
Proof.
  unfold pc_words, pc_moves.
  apply interp_move with (mkRS Straight (0, 1)%nat false (Some 300) (pt 3 4)).
  { constructor.
    - is_proper.
    - left. exists 1%Z. split; cbn; tauto.
    - right. split; [reflexivity|no_code].
    - right. split; [reflexivity|no_code].
    - axis_cases.
    - intros f H. cbn [In] in H. repeat (destruct H as [H|H]; [pose proof (f_equal fst H) as L; pose proof (f_equal snd H) as V; cbn [fst snd] in L, V; try letter_clash|]); [lra|contradiction].
    - intros f [= <-]. split; [reflexivity|]. left. here. }
  { split; [left; exists 1%Z, Straight; split; cbn; tauto|]. repeat (split; [reflexivity|]).
    split; [split; [intros i L; destruct i as [|[|[|i]]]; [..|lia]; none|none]|]. split; [reflexivity|]. split; [reflexivity|]. intros _. split; [left; here|discriminate]. }
  apply interp_move with (mkRS Clockwise (0, 1)%nat false (Some 300) (pt 13 4)).
  { constructor.
    - is_proper.
    - left. exists 2%Z. split; cbn; tauto.
    - right. split; [reflexivity|no_code].
    - right. split; [reflexivity|no_code].
    - axis_cases.
    - intros f H. not_in H.
    - intros f [= <-]. split; [reflexivity|]. right. split; [none|split; [unfold no_feed_code; no_code|reflexivity]]. }
  { split; [left; exists 2%Z, Clockwise; split; cbn; tauto|]. repeat (split; [reflexivity|]).
    split; [split; [here|split; [here|none]]|]. split; [reflexivity|]. split; [discriminate|].
    intros _. split; [right; split; [none|split; [unfold no_feed_code; no_code|reflexivity]]|discriminate]. }
  apply interp_move with pc_end.
  { constructor.
    - is_proper.
    - left. exists 1%Z. split; cbn; tauto.
    - right. split; [reflexivity|no_code].
    - right. split; [reflexivity|no_code].
    - axis_cases.
    - intros f H. not_in H.
    - intros f [= <-]. split; [reflexivity|]. right. split; [none|split; [unfold no_feed_code; no_code|reflexivity]]. }
  { split; [left; exists 1%Z, Straight; split; cbn; tauto|]. repeat (split; [reflexivity|]).
    split; [split; [intros i L; destruct i as [|[|[|i]]]; [..|lia]; none|none]|]. split; [reflexivity|]. split; [reflexivity|].
    intros _. split; [right; split; [none|split; [unfold no_feed_code; no_code|reflexivity]]|discriminate]. }
  apply interp_end.
Qed.

Lemma pc_possible : forall r, (forall i, rm_k r i = 200) -> Forall (possible r) pc_moves.
Proof.
  intros r K. unfold pc_moves.
  apply Forall_cons; [|apply Forall_cons; [|apply Forall_cons; [|apply Forall_nil]]]; unfold possible; cbn [mv_from mv_to mv_plane mv_mode mv_centre is_arc].
  - exists 0. split; [|split; [|reflexivity]]. { intros i L. rewrite K. destruct i as [|[|[|i]]]; [..|lia]; cbn [pt]; split; apply ex_range; lra. } unfold distance; cbn [pt]; unfold sq; apply sqrt_lt_R0; lra.
  - assert (Q : 2 * sqrt (sq 5 + sq 0) = 10) by (replace (sq 5 + sq 0) with (5 * 5) by (unfold sq; lra); rewrite sqrt_square; lra).
    exists 10. split; [|cbn [pt]; unfold dist2, sq; rewrite <- Q; unfold sq; repeat split; lra].
    intros i L. rewrite K. destruct i as [|[|[|i]]]; [..|lia]; cbn [pt]; split; apply ex_range; lra.
  - exists 0. split; [|split; [|reflexivity]]. { intros i L. rewrite K. destruct i as [|[|[|i]]]; [..|lia]; cbn [pt]; split; apply ex_range; lra. } unfold distance; cbn [pt]; unfold sq; apply sqrt_lt_R0; lra.
Qed.

Lemma pc_short r w : (forall i, rm_v r i = 30 /\ rm_a r i = 200 /\ rm_d r i = -200) -> 1/60000 <= w ->
  forall mv l, In mv pc_moves -> does r mv l -> short w l.
Proof.
  intros K W mv l I D. pose proof PI_4. pose proof PI_RGT_0. unfold pc_moves in I. cbn [In] in I.
  assert (LEN : pa_len (lg_path l) <= 40 /\ (forall a, pa_arc (lg_path l) = Some a -> ar_r a = 5)).
  { destruct (is_arc (mv_mode mv)) eqn:EA.
    - assert (R5 : forall a, arc_does mv a -> path_ok (lg_path l) -> pa_arc (lg_path l) = Some a -> ar_r a = 5).
      { intros a AD OK PA. destruct OK as (_ & OK). cbv zeta in OK. rewrite PA in OK. destruct OK as (RP & _).
        destruct D as (EN & _). destruct AD as (AX & _ & CE).
        destruct I as [I|[I|[I|[]]]]; subst mv; try discriminate EA. cbn [mv_plane mv_centre mv_from mv_to] in *.
        injection AX as A0 A1. rewrite <- A0, <- A1 in CE. destruct CE as (C0 & C1). cbn [pt] in C0, C1.
        destruct (EN 0%nat ltac:(lia)) as (P0 & _). destruct (EN 1%nat ltac:(lia)) as (P1 & _). unfold path_pos in P0, P1. rewrite PA, <- A0, <- A1 in P0, P1. cbn [Nat.eqb pt] in P0, P1.
        match type of P0 with context [cos ?x] => assert (SC := sin2_cos2 x); set (co := cos x) in *; set (si := sin x) in * end. unfold Rsqr in SC.
        assert (X : ar_r a * co = -5) by lra. assert (Y : ar_r a * si = 0) by lra.
        assert (Q : ar_r a * ar_r a = 5 * 5). { replace (ar_r a * ar_r a) with ((ar_r a * co) * (ar_r a * co) + (ar_r a * si) * (ar_r a * si)); [rewrite X, Y; lra|].
          transitivity (ar_r a * ar_r a * (si * si + co * co)); [ring|rewrite SC; ring]. }
        nra. }
      split.
      + apply arc_length with r mv 5; auto.
        * destruct I as [I|[I|[I|[]]]]; subst mv; try discriminate EA; reflexivity.
        * intros a X Y Z. rewrite (R5 a X Y Z). lra.
        * destruct I as [I|[I|[I|[]]]]; subst mv; try discriminate EA. cbn [mv_to mv_from pt]. unfold sq. nra.
        * lra.
      + intros a PA. pose proof D as (EN & ST & LO). rewrite EA in ST. destruct ST as (a' & PA' & AD). assert (a' = a) by congruence. subst a'. apply R5; auto. apply LO.
    - split.
      + apply straight_length with r mv; auto; [|lra].
        destruct I as [I|[I|[I|[]]]]; subst mv; try discriminate EA; cbn [mv_to mv_from pt]; unfold sq; lra.
      + intros a PA. destruct D as (_ & ST & _). rewrite EA in ST. congruence. }
  destruct LEN as (LEN & RAD).
  apply move_short with r mv 5 200 40; auto; try lra.
  - intros i _. destruct (K i) as (-> & _). lra.
  - intros a i PA _. rewrite (RAD a PA). destruct (K i) as (_ & -> & _). lra.
  - intros NR. destruct I as [I|[I|[I|[]]]]; subst mv; cbn [mv_mode mv_inverse mv_F] in *; split; try reflexivity; lra.
  - intros i _. destruct (K i) as (_ & -> & ->). lra.
  - assert (1 <= 4294967295 * w) by lra. assert (1 * 1 <= 4294967295 * w * (4294967295 * w)) by (apply Rmult_le_compat; lra). lra.
Qed.
Lemma pc_keeps r u : (forall i, 5 <= u i) -> Forall (keeps r u) pc_moves.
Proof.
  intros U. unfold pc_moves. repeat (apply Forall_cons; [|]); [..|apply Forall_nil]; intros i _; right; cbn [mv_mode mv_inverse mv_F];
  (split; [discriminate|split; [reflexivity|specialize (U i); lra]]).
Qed.

(** A main loop that comes round once per tick. *)
Fixpoint each_tick (n : nat) : list flow_op := match n with O => [] | S n => Pass :: Tick :: each_tick n end.
Lemma each_tick_counts n : passes_in (each_tick n) = n /\ ticks_in (each_tick n) = n.
Proof. induction n as [|n (A & B)]; [split; reflexivity|]. cbn [each_tick]. unfold passes_in, ticks_in in *. cbn [filter length]. lia. Qed.
Ltac short_case := solve [unfold ticks_in, passes_in; cbn; repeat constructor].
Lemma each_tick_steady n : steady (each_tick n).
Proof.
  assert (H : forall k b c, (each_tick k = b ++ c -> (ticks_in b <= passes_in b)%nat) /\ (Tick :: each_tick k = b ++ c -> (ticks_in b <= passes_in b + 1)%nat)).
  { clear n. induction k as [|n IH]; intros b c.
    - split; intro E; cbn [each_tick] in E.
      + destruct b; [short_case|discriminate].
      + destruct b as [|o b]; [short_case|]. injection E as <- E. destruct b; [short_case|discriminate].
    - assert (E1 : forall b c, each_tick (S n) = b ++ c -> (ticks_in b <= passes_in b)%nat).
      { clear b c. intros b c E. cbn [each_tick] in E. destruct b as [|o b]; [short_case|]. injection E as <- E. destruct (IH b c) as (_ & H2).
        specialize (H2 E). unfold ticks_in, passes_in in *. cbn [filter length]. lia. }
      split; [apply E1|]. intro E. destruct b as [|o b]; [short_case|]. injection E as <- E. specialize (E1 b c E).
      unfold ticks_in, passes_in in *. cbn [filter length]. lia. }
  assert (S : forall k a b c, (each_tick k = a ++ b ++ c -> (ticks_in b <= passes_in b + 1)%nat) /\ (Tick :: each_tick k = a ++ b ++ c -> (ticks_in b <= passes_in b + 1)%nat)).
  { clear - H. induction k as [|n IH]; intros a b c.
    - split; intro E; destruct a as [|o a]; cbn [app] in E.
      + pose proof (proj1 (H 0%nat b c) E). lia.
      + discriminate.
      + exact (proj2 (H 0%nat b c) E).
      + injection E as <- E. destruct a; [|discriminate]. destruct b; [short_case|discriminate].
    - assert (E1 : forall a b c, each_tick (S n) = a ++ b ++ c -> (ticks_in b <= passes_in b + 1)%nat).
      { clear a b c. intros a b c E. destruct a as [|o a]; cbn [app] in E; [pose proof (proj1 (H (S n) b c) E); lia|].
        cbn [each_tick] in E. injection E as <- E. exact (proj2 (IH a b c) E). }
      split; [apply E1|]. intro E. destruct a as [|o a]; cbn [app] in E; [exact (proj2 (H (S n) b c) E)|]. injection E as <- E. exact (E1 a b c E). }
  intros a b c E L. pose proof (proj1 (S n a b c) E). lia.
Qed.
