(** Concrete lines in exact arithmetic, to show that the theorems' hypotheses can be met. *)
Require Import String List Arith NArith ZArith Bool Reals Lra Lia.
From Verif Require Import Base Num NumR MotionModel GcodeModel GcodeSpec GcodeRSpec GText GBlockProofs GParseProofs GHeadProofs GStageProofs
  GMeaningProofs GArcProofs GPathProofs GTotalProofs GLineProofs.
Import ListNotations.
Open Scope N_scope.

Definition wd (l : N) (x : R) (n : N) : @word xr := mkW l (XF x) n.
Ltac real_number := unfold number_of;
  match goal with |- context [parse_number ?t] => let v := eval vm_compute in (parse_number t) in change (parse_number t) with v end;
  cbn [ndec x_num nopp xopp w_number wd]; f_equal; simpl; lra.
Ltac real_code := (apply code_int; [now left|cbn; lra|lia]) || reflexivity.
Ltac real_words := apply read_words;
  [repeat constructor; vm_compute; intuition discriminate|cbn; lia|cbn; lia|
   repeat (apply Forall2_cons; [split; [reflexivity|split; [real_number|]]|]); [..|apply Forall2_nil]].


Ltac no_word := intros (w & Iw & El & Ei); cbn in Iw; repeat (destruct Iw as [<-|Iw]; [cbn in El, Ei; discriminate|]); destruct Iw.
Ltac no_letter := intros (w & Iw & El); cbn in Iw; repeat (destruct Iw as [<-|Iw]; [cbn in El; discriminate|]); destruct Iw.
Ltac a_word0 := eexists; split; [left; reflexivity|split; reflexivity].
Ltac a_word1 := eexists; split; [right; left; reflexivity|split; reflexivity].
Ltac a_word2 := eexists; split; [right; right; left; reflexivity|split; reflexivity].
Ltac consist := apply (consistent_cnt x_num); [intros []; cbv; discriminate|
  intros l g I; cbn in I; repeat (destruct I as [I|I]; [injection I as <- <-; cbv; discriminate|]); destruct I].

Notation start := (gcode0 x_num).
Notation start_m := (sm_new x_num).

Lemma sized_start : sized (g_st start).
Proof. exact (sized0 x_num). Qed.
Lemma finite_start : finite_state (g_st start).
Proof. exact finite0. Qed.

(** A line with G0, G2 or G3 makes this motion. *)
Lemma example_line l ws n g : line_words x_num l ws -> consistent ws -> ~ has ws cG 40 -> ~ has ws cG 530 -> ~ has ws cG 10 ->
  In (cG, n, g) motion_words -> has ws cG n ->
  ((forall ch, In ch center_letters -> ~ has_letter ws ch) \/ (~ has ws cG 0 /\ (has ws cG 20 \/ has ws cG 30))) ->
  exists c m, g_line x_num (XF PI) start start_m l = Ok (c, m) /\ made_motion c m /\ sm_type m = mtype g.
Proof.
  intros LW CO N4 N53 N1 I HS HC.
  destruct (line_total x_num (XF PI) start start_m l ws sized_start LW) as ([c m] & E); [tauto|].
  exists c, m. split; [exact E|].
  destruct (motion_made x_num (XF PI) _ _ _ _ _ _ _ _ _ LW CO sized_start E N4 N53 N1 I HS) as (A & B & _). auto.
Qed.

(** G2 X10 I5 J0 F600 *)
Definition arc_text := [(cG, txt "2"); (cX, txt "10"); (cI, txt "5"); (cJ, txt "0"); (cF, txt "600")].
Definition arc_words := [wd cG 2 20; wd cX 10 0; wd cI 5 0; wd cJ 0 0; wd cF 600 0].
Lemma arc_read : line_words x_num (text_of arc_text) arc_words.
Proof.
  real_words; try reflexivity. exact (code_int cG 2 20 (or_introl eq_refl) ltac:(lra) ltac:(lia)).
Qed.
Lemma arc_consistent : consistent arc_words.
Proof. consist. Qed.
Lemma start_finite : at_mm (s_cur (g_st start)) (fun _ => 0%R).
Proof. intros i L. destruct i as [|[|[|i]]]; [reflexivity..|lia]. Qed.
Lemma zero_real : nadd x_num (nofZ x_num 0) (nofZ x_num 0) = nofZ x_num 0.
Proof. cbn. f_equal. lra. Qed.
Lemma tracked_start : tracked x_num (g_st start).
Proof. exact (proj2 (plain_tracked x_num (XF PI) _ _ zero_real (plain_start x_num (XF PI)))). Qed.
Lemma arc_example : exists c m, g_line x_num (XF PI) start start_m (text_of arc_text) = Ok (c, m) /\
  made_motion c m /\ sm_type m = feedHelicalCW.
Proof.
  apply (example_line _ arc_words 20 G2 arc_read arc_consistent); try no_word; [right; right; left; reflexivity|a_word0|].
  right. split; [no_word|left; a_word0].
Qed.
(** G3 X10 R5 F600 *)
Definition radius_text := [(cG, txt "3"); (cX, txt "10"); (cR, txt "5"); (cF, txt "600")].
Definition radius_words := [wd cG 3 30; wd cX 10 0; wd cR 5 0; wd cF 600 0].
Lemma radius_read : line_words x_num (text_of radius_text) radius_words.
Proof.
  real_words; try reflexivity. exact (code_int cG 3 30 (or_introl eq_refl) ltac:(lra) ltac:(lia)).
Qed.
Lemma radius_consistent : consistent radius_words.
Proof. consist. Qed.
Lemma radius_example : exists c m, g_line x_num (XF PI) start start_m (text_of radius_text) = Ok (c, m) /\
  made_motion c m /\ sm_type m = feedHelicalCCW.
Proof.
  apply (example_line _ radius_words 30 G3 radius_read radius_consistent); try no_word; [right; right; right; left; reflexivity|a_word0|].
  right. split; [no_word|right; a_word0].
Qed.
(** G0 X3 Y4 *)
Definition line_text := [(cG, txt "0"); (cX, txt "3"); (cY, txt "4")].
Definition linear_words := [wd cG 0 0; wd cX 3 0; wd cY 4 0].
Lemma linear_read : line_words x_num (text_of line_text) linear_words.
Proof.
  real_words; try reflexivity. exact (code_int cG 0 0 (or_introl eq_refl) ltac:(lra) ltac:(lia)).
Qed.
Lemma linear_consistent : consistent linear_words.
Proof. consist. Qed.
Lemma linear_example : exists c m, g_line x_num (XF PI) start start_m (text_of line_text) = Ok (c, m) /\
  made_motion c m /\ sm_type m = traverse.
Proof.
  apply (example_line _ linear_words 0 G0 linear_read linear_consistent); try no_word; [left; reflexivity|a_word0|].
  left. intros ch I. cbn in I. repeat (destruct I as [<-|I]; [no_letter|]). destruct I.
Qed.

(** Where a motion from the start ends: named axes, in G90 and mm. *)
Lemma modes_kept l ws c m : line_words x_num l ws -> consistent ws -> g_line x_num (XF PI) start start_m l = Ok (c, m) ->
  ~ has ws cG 40 -> ~ has ws cG 910 -> ~ has ws cG 530 -> (forall l n v, In (l, n, v) unit_words -> ~ has ws l n) -> (forall l n v, In (l, n, v) coord_words -> ~ has ws l n) ->
  (forall l n v, In (l, n, v) plane_words -> ~ has ws l n) ->
  s_dist (g_st c) = G90 /\ s_unit (g_st c) = G21 /\ s_coord (g_st c) = G54 /\ s_plane (g_st c) = G17.
Proof.
  intros LW CO E N4 N91 N53 NU NC NP.
  destruct (modal_lemma x_num (XF PI) _ _ _ _ _ _ LW CO sized_start E) as (_ & B & _).
  destruct B as (U & P & DI & C & _); [intros (X & _); contradiction|].
  split; [|split; [|split]].
  - destruct DI as [(l1 & n1 & I1 & H1)|(X & _)]; [|exact X]. cbn in I1. destruct I1 as [I1|[I1|[]]]; [congruence|].
    exfalso. apply N91. inversion I1; subst. exact H1.
  - destruct U as [(l1 & n1 & I1 & H1)|(X & _)]; [exfalso; eapply NU; eassumption|exact X].
  - destruct C as [(l1 & n1 & I1 & H1)|(X & _)]; [exfalso; eapply NC; eassumption|exact X].
  - destruct P as [(l1 & n1 & I1 & H1)|(X & _)]; [exfalso; eapply NP; eassumption|exact X].
Qed.
Ltac no_words := intros ? ? ? In0; cbn in In0; repeat (destruct In0 as [In0|In0]; [injection In0 as <- <- <-; no_word|]); destruct In0.
Lemma start_end l ws c m x y z : line_words x_num l ws -> consistent ws -> g_line x_num (XF PI) start start_m l = Ok (c, m) -> made_motion c m ->
  ~ has ws cG 40 -> ~ has ws cG 910 -> ~ has ws cG 530 -> (forall l n v, In (l, n, v) unit_words -> ~ has ws l n) -> (forall l n v, In (l, n, v) coord_words -> ~ has ws l n) ->
  (forall l n v, In (l, n, v) plane_words -> ~ has ws l n) ->
  (has_value ws cX (XF x) \/ ~ has_letter ws cX /\ x = 0%R) -> (has_value ws cY (XF y) \/ ~ has_letter ws cY /\ y = 0%R) ->
  (has_value ws cZ (XF z) \/ ~ has_letter ws cZ /\ z = 0%R) ->
  at_mm (s_cur (g_st c)) (fun i => match i with 0%nat => x | 1%nat => y | _ => z end).
Proof.
  intros LW CO E MM N4 N91 N53 NU NC NP VX VY VZ.
  destruct (modes_kept _ _ _ _ LW CO E N4 N91 N53 NU NC NP) as (MD & MU & MC & MP).
  destruct (unnamed_lemma x_num (XF PI) _ _ _ _ _ _ LW sized_start E) as (_ & UN).
  { repeat split; assumption. }
  { exact tracked_start. }
  { intros EI. exfalso. destruct MM as (_ & NR). destruct (line_cases x_num (XF PI) _ _ _ _ _ _ LW sized_start E) as [(_ & _ & X & _)|(_ & b & c0 & cH & cM & _ & _ & _ & _ & _ & _ & O)]; [contradiction|].
    destruct O as [x0 c1 m1 D1|g1 c1 m1 D0 D1|g1 s1 c1 m1 _ _ _ _ _ _ _ _ _ _ X|c1 m1 _ _ _ _ _ _ X|c1 m1 _ _ _ _ _ _ X].
    - destruct D1; contradiction.
    - contradiction.
    - congruence.
    - contradiction.
    - congruence. }
  assert (WC : s_wcs (g_st c) = s_wcs (gstate0 x_num)) by exact (proj2 (sized_line x_num (XF PI) _ _ _ _ _ sized_start E)).
  assert (OFF : forall i, (i < 3)%nat -> offset x_num (g_st c) G54 i = XF 0).
  { intros i L. unfold offset. rewrite WC. destruct i as [|[|[|i]]]; [reflexivity..|lia]. }
  assert (AX : forall ch i g v, In (ch, i, g) axis_letters -> (i < 3)%nat -> (has_value ws ch (XF v) \/ ~ has_letter ws ch /\ v = 0%R) ->
     coord_at x_num (s_cur (g_st c)) i = XF v).
  { intros ch i g v I L [V|(V & ->)].
    - destruct (absolute_lemma x_num (XF PI) _ _ _ _ _ _ _ _ _ _ LW sized_start E MM MD I V) as (A & _).
      rewrite (A N53), MC, (OFF i L), MU. cbn. f_equal. lra.
    - rewrite (UN ch i g I V). destruct i as [|[|[|i]]]; [reflexivity..|lia]. }
  intros i L. destruct i as [|[|[|i]]]; [apply (AX cX 0%nat LtX)|apply (AX cY 1%nat LtY)|apply (AX cZ 2%nat LtZ)|lia]; auto; cbn; tauto.
Qed.

(** G0 X3 Y4 from the origin is 5 mm long. *)
Lemma linear_length : exists c m, g_line x_num (XF PI) start start_m (text_of line_text) = Ok (c, m) /\
  made_motion c m /\ sm_type m = traverse /\ sm_length m = XF 5.
Proof.
  destruct linear_example as (c & m & E & MM & T). exists c, m. split; [exact E|]. split; [exact MM|]. split; [exact T|].
  assert (Q : at_mm (s_cur (g_st c)) (fun i => match i with 0%nat => 3 | 1%nat => 4 | _ => 0 end)%R).
  { apply (start_end _ _ _ _ 3 4 0 linear_read linear_consistent E MM); try no_word; try no_words.
    - left. a_word1.
    - left. a_word2.
    - right. split; [no_letter|reflexivity]. }
  destruct (line_lemma _ _ _ _ _ sized_start finite_start (reached_radius _ _ (reached0 x_num (XF PI))) E MM) as (p & q & HP & HQ & L & _).
  { left. exact T. }
  rewrite L. f_equal. unfold distance.
  assert (X : forall i, (i < 3)%nat -> p i = 0%R /\ q i = (match i with 0%nat => 3 | 1%nat => 4 | _ => 0 end)%R).
  { intros i Li. pose proof (HP i Li) as A. rewrite (start_finite i Li) in A. pose proof (HQ i Li) as B. rewrite (Q i Li) in B.
    split; congruence. }
  destruct (X 0%nat) as (-> & ->); [lia|]. destruct (X 1%nat) as (-> & ->); [lia|]. destruct (X 2%nat) as (-> & ->); [lia|].
  unfold GeomSpec.sq. replace ((3 - 0) * (3 - 0) + (4 - 0) * (4 - 0) + (0 - 0) * (0 - 0))%R with (5 * 5)%R by lra. apply sqrt_square. lra.
Qed.
Lemma radius_end : forall c m, g_line x_num (XF PI) start start_m (text_of radius_text) = Ok (c, m) -> made_motion c m ->
  at_mm (s_cur (g_st c)) (fun i => match i with 0%nat => 10 | 1%nat => 0 | _ => 0 end)%R.
Proof.
  intros c m E MM. apply (start_end _ _ _ _ 10 0 0 radius_read radius_consistent E MM); try no_word; try no_words.
  - left. a_word1.
  - right. split; [no_letter|reflexivity].
  - right. split; [no_letter|reflexivity].
Qed.
