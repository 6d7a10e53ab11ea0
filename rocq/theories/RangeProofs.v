(** Proofs on the range the axes move in. *)
Require Import String List Arith NArith ZArith Bool Reals Lra Lia.
From Coq Require Import Floats.SpecFloat.
From Flocq Require Import Raux.
From Verif Require Import Base StepModel StepSpec Num NumR NumSF MotionModel CtrlModel CtrlSpec CtrlRSpec ProfileSpec GeomSpec RunSpec GcodeModel GcodeSpec GcodeRSpec GText GLineProofs HomingModel.
From Verif Require Import FloatSpec FloatRunSpec FloatProgSpec FloatProofs FloatClockProofs FloatErrProofs FloatJobProofs FloatLimitProofs FloatReadProofs FloatTextProofs PlanProofs FloatArcSpec FloatArcProofs FloatBendSpec FloatBendProofs FloatWayProofs FloatFlowSpec FloatFlowProofs FloatPassProofs RangeSpec PropertiesText.
Import ListNotations.
Open Scope R_scope.

Lemma plan_between a d vm T len s v acc t : plan_spec 0 0 a d vm 0 0 T len s v acc -> 0 <= t <= T -> 0 <= s t <= len.
Proof.
  intros [A1 (A2 & _) (A3 & _) A4 A5 A6 A7 _ _ _] Ht.
  assert (G : forall x y, 0 <= x -> x <= y -> y <= T -> s x <= s y).
  { intros x y Hx Hy Hz. destruct (lip s v vm 0 x y Hy) as (L & _); [intros; apply A4; lra|intros; apply A5; lra|intros; apply A7; lra|lra]. }
  rewrite <- A2, <- A3. split; apply G; lra.
Qed.

(** On a straight way, or a little beyond its end. *)
Lemma on_line lo hi p q d f : lo <= p <= hi -> lo <= q <= hi -> Rabs (d - (q - p)) <= / 1000000 -> 0 <= f <= 1 + / 450000 ->
  lo - (/ 900000 + (hi - lo) / 450000) <= p + d * f <= hi + (/ 900000 + (hi - lo) / 450000).
Proof.
  intros P Q D F. assert (D1 : - / 1000000 <= d - (q - p) <= / 1000000) by (apply Rabs_le_inv; exact D). clear D.
  set (e := d - (q - p)) in *. replace d with (e + (q - p)) by (unfold e; ring). clearbody e. clear d.
  assert (E : - (/ 1000000 * (1 + / 450000)) <= e * f <= / 1000000 * (1 + / 450000)).
  { assert (Rabs (e * f) <= / 1000000 * (1 + / 450000)). { rewrite Rabs_mult. apply Rmult_le_compat; try apply Rabs_pos; [apply Rabs_le; lra|rewrite Rabs_pos_eq; lra]. }
    apply Rabs_le_inv. assumption. }
  destruct (Rle_dec f 1) as [F1|F1].
  - assert (0 <= f * (q - lo)) by (apply Rmult_le_pos; lra). assert (0 <= (1 - f) * (p - lo)) by (apply Rmult_le_pos; lra).
    assert (0 <= f * (hi - q)) by (apply Rmult_le_pos; lra). assert (0 <= (1 - f) * (hi - p)) by (apply Rmult_le_pos; lra). lra.
  - assert (G : Rabs ((f - 1) * (q - p)) <= / 450000 * (hi - lo)). { rewrite Rabs_mult. apply Rmult_le_compat; try apply Rabs_pos; [rewrite Rabs_pos_eq; lra|apply Rabs_le; lra]. }
    apply Rabs_le_inv in G. lra.
Qed.

Section Box.
Variables (X : sf_funs) (M : machine sf) (u : funit) (s : shop) (fo : sf) (lo hi : nat -> R).
Hypothesis SO : shop_ok X M u s.
Definition nearly_in (x : nat -> R) : Prop := forall i, (i < 3)%nat -> lo i - stray lo hi i <= x i <= hi i + stray lo hi i.

Lemma box_wide x : in_box lo hi x -> nearly_in x.
Proof. intros B i Hi. pose proof (B i Hi). unfold stray. lra. Qed.

Lemma leg_in p q f g x : in_box lo hi p -> in_box lo hi q -> leg_fits u s p q -> leg_done u s p q f g -> 0 <= x <= (1 + / 450000) * pa_len (lg_path g) ->
  nearly_in (fun i => path_pos (lg_path g) i x).
Proof.
  intros BP BQ (LF & _) (NA & SD & LL & _) Hx i Hi. destruct (so_range _ _ _ _ SO) as (_ & _ & _ & L0 & _). apply Rabs_le_inv in LL.
  assert (LP : 0 < pa_len (lg_path g)) by lra. unfold path_pos. rewrite NA. unfold linear_pos. destruct (SD i Hi) as (-> & D).
  apply (on_line (lo i) (hi i) (p i) (q i)); auto. split.
  - apply Rmult_le_pos; [lra|]. left. now apply Rinv_0_lt_compat.
  - apply Rmult_le_reg_r with (pa_len (lg_path g)); [exact LP|]. unfold Rdiv. rewrite Rmult_assoc, Rinv_l, Rmult_1_r by lra. lra.
Qed.
Lemma leg_len p q f g : leg_fits u s p q -> leg_done u s p q f g -> 0 < pa_len (lg_path g).
Proof. intros (LF & _) (_ & _ & LL & _). destruct (so_range _ _ _ _ SO) as (_ & _ & _ & L0 & _). apply Rabs_le_inv in LL. lra. Qed.
Lemma leg_time p q f g t : leg_fits u s p q -> leg_done u s p q f g -> 0 <= t <= lg_T g -> 0 <= lg_s g t <= (1 + / 450000) * pa_len (lg_path g).
Proof.
  intros LF LD Ht. pose proof (leg_len _ _ _ _ LF LD). destruct LD as (_ & _ & _ & l & (_ & _ & len & v & acc & PS & LE) & _).
  apply Rabs_le_inv in LE. pose proof (plan_between _ _ _ _ _ _ _ _ t PS Ht). lra.
Qed.

Lemma box_kept os : forall p stops fs legs x, stops_fit X u s fo p os stops fs -> legs_done u s p stops fs legs -> in_box lo hi p -> Forall (in_box lo hi) stops -> nearly_in x ->
  (forall t, 0 <= t <= total legs -> nearly_in (where_at x legs t)) /\ nearly_in (end_of x (map lg_path legs)).
Proof.
  induction os as [|o os IH]; intros p stops fs legs x SF LD BP BS NX.
  - destruct stops, fs; cbn [stops_fit] in SF; try contradiction. destruct legs; [|destruct LD]. split; [intros t Ht i Hi; exact (NX i Hi)|exact NX].
  - destruct stops as [|q stops], fs as [|f fs]; cbn [stops_fit] in SF; try contradiction. destruct SF as (_ & LF & _ & SF). destruct legs as [|g legs]; [destruct LD|]. destruct LD as (LG & LD).
    apply Forall_cons_iff in BS as (BQ & BS).
    assert (NE : nearly_in (fun i => path_pos (lg_path g) i (pa_len (lg_path g)))).
    { apply (leg_in p q f g _ BP BQ LF LG). pose proof (leg_len _ _ _ _ LF LG). lra. }
    destruct (IH q stops fs legs _ SF LD BQ BS NE) as (I1 & I2). split; [|exact I2].
    intros t Ht i Hi. unfold where_at. cbn [locate]. destruct (Rle_dec t (lg_T g)) as [L|L].
    + exact (leg_in p q f g _ BP BQ LF LG (leg_time _ _ _ _ t LF LG (conj (proj1 Ht) L)) i Hi).
    + assert (T2 : 0 <= t - lg_T g <= total legs). { unfold total, rsum in *. cbn [map fold_right] in Ht. lra. }
      exact (I1 _ T2 i Hi).
Qed.
End Box.

Lemma count_in u lo hi x c : (forall i, (i < 3)%nat -> 0 < fu_k u i) -> nearly_in lo hi x ->
  (forall i, (i < 3)%nat -> Rabs (fu_k u i * x i - counted c i) <= reach (fu_B u) (fu_H u)) -> counts_in u lo hi c.
Proof.
  intros K N R i Hi. specialize (K i Hi). specialize (R i Hi). destruct (N i Hi) as (N1 & N2). apply Rabs_le_inv in R.
  apply (Rmult_le_compat_l (fu_k u i)) in N1; [|lra]. apply (Rmult_le_compat_l (fu_k u i)) in N2; [|lra]. lra.
Qed.

Lemma stays_in X M u s fo lo hi : funit_ok X M u -> shop_ok X M u s -> forall w, float32 w (fu_W u) ->
  forall pi c m ls c' m' outs r x0 stops fs k, reached (g_f X) pi c m -> float64 (sm_radius m) r -> at64 X (s_cur (g_st c)) x0 ->
  GcodeModel.g_run (g_f X) pi c m ls = Ok (c', m', outs) -> straight_only outs -> stops_fit X u s fo x0 (passed_on outs) stops fs -> (1 <= length stops <= 32)%nat ->
  idle X k w fo -> (forall i, (i < 3)%nat -> Rabs (fu_k u i * x0 i - counted k i) <= 54/100) ->
  in_box lo hi x0 -> Forall (in_box lo hi) stops ->
  exists k0 (n : nat), c_run (sf_arith X) M k (map (fun o => OAppend (snd o)) (passed_on outs) ++ [OStart]) = Ok (k0, []) /\
    (forall j, (j <= n)%nat -> exists kj, ticks_run (sf_arith X) M j k0 = Ok kj /\ counts_in u lo hi kj) /\
    exists kn, ticks_run (sf_arith X) M n k0 = Ok kn /\ idle X kn w fo.
Proof.
  intros UO SO w FW pi c m ls c' m' outs r x0 stops fs k RE FR AT GR ST SF LE ID CL B0 BS.
  destruct (C79_program_followed X M u s fo UO SO w FW pi c m ls c' m' outs r x0 stops fs k RE FR AT GR ST SF LE ID CL) as (_ & k0 & legs & n & kn & CR & LD & UW & TN & AD & IN & _).
  destruct (box_kept X M u s fo lo hi SO (passed_on outs) x0 stops fs legs x0 SF LD B0 BS (box_wide lo hi x0 B0)) as (W1 & W2).
  assert (K : forall i, (i < 3)%nat -> 0 < fu_k u i) by (intros i Hi; apply (fu_steps _ _ _ UO i Hi)).
  exists k0, n. split; [exact CR|]. split; [|exists kn; auto]. intros j Hj. destruct (Nat.eq_dec j n) as [-> |NE].
  - exists kn. split; [exact TN|]. destruct AD as (_ & _ & AD & _). exact (count_in u lo hi _ kn K W2 AD).
  - destruct (UW j ltac:(lia)) as (kj & TJ & _ & t & Ht & _ & CW). exists kj. split; [exact TJ|]. exact (count_in u lo hi _ kj K (W1 t Ht) CW).
Qed.

(** *** With arcs. *)
Section Route.
Variables (X : sf_funs) (M : machine sf) (u : funit) (s : shop) (fo : sf) (lo hi : nat -> R).
Hypothesis UO : funit_ok X M u.
Let e : R := fu_H u / 450000.
Definition about (x : nat -> R) : Prop := forall i, (i < 3)%nat -> fu_k u i * (lo i - / 1000000) - e <= fu_k u i * x i <= fu_k u i * (hi i + / 1000000) + e.

Lemma e_pos : 0 <= e.
Proof. unfold e. pose proof (fu_large _ _ _ UO). lra. Qed.
Lemma k_pos i : (i < 3)%nat -> 0 < fu_k u i.
Proof. intro Hi. apply (fu_steps _ _ _ UO i Hi). Qed.
Lemma mul_between k a b x : 0 < k -> a <= x <= b -> k * a <= k * x <= k * b.
Proof. intros K (A & B). split; apply Rmult_le_compat_l; lra. Qed.
Lemma box_about x : in_box lo hi x -> about x.
Proof.
  intros B i Hi. pose proof (mul_between _ (lo i - / 1000000) (hi i + / 1000000) (x i) (k_pos i Hi)) as H. pose proof e_pos. pose proof (B i Hi). lra.
Qed.
Lemma move_carried q : move_ok X M fo u q -> trig_ok X -> exists c, carried X M fo u (fq_m q) (fq_P q) (fq_l q) c.
Proof. intros [Sq|(arc & Sq)] TR; [exists 1; now apply straight_carried|exists over; now apply curved_carried with (arc := arc)]. Qed.

Lemma way_about p t f q : trig_ok X -> move_ok X M fo u q -> way_planned u s p t f (fq_P q) (fq_l q) -> way_in lo hi p t ->
  forall x, 0 <= x <= (1 + / 450000) * pa_len (fq_P q) -> about (fun i => path_pos (fq_P q) i x).
Proof.
  intros TR MO ((_ & SW) & LP & _) WI.
  assert (IN : forall x, 0 <= x <= pa_len (fq_P q) -> forall i, (i < 3)%nat -> lo i - / 1000000 <= path_pos (fq_P q) i x <= hi i + / 1000000).
  { intros x Hx i Hi. assert (X1 : 0 <= x / pa_len (fq_P q) <= 1).
    { split; [apply Rmult_le_pos; [lra|left; now apply Rinv_0_lt_compat]|]. apply Rmult_le_reg_r with (pa_len (fq_P q)); [exact LP|]. unfold Rdiv. rewrite Rmult_assoc, Rinv_l by lra. lra. }
    pose proof (SW i _ Hi X1) as D. replace (x / pa_len (fq_P q) * pa_len (fq_P q)) with x in D by (field; lra). apply Rabs_le_inv in D. pose proof (WI i _ Hi X1). lra. }
  intros x Hx i Hi. pose proof (k_pos i Hi) as K. pose proof e_pos. destruct (Rle_dec x (pa_len (fq_P q))) as [L|L].
  - pose proof (mul_between _ _ _ _ K (IN x ltac:(lra) i Hi)). lra.
  - pose proof (mul_between _ _ _ _ K (IN (pa_len (fq_P q)) ltac:(lra) i Hi)) as B. destruct (move_carried q MO TR) as (c & CD).
    destruct (cd_lin _ _ _ _ _ _ _ _ CD) as (C0 & CL). specialize (CL i x (pa_len (fq_P q)) Hi). rewrite (Rabs_pos_eq (x - _)) in CL by lra.
    pose proof (cd_steps _ _ _ _ _ _ _ _ CD i Hi) as CS.
    assert (D : c * (x - pa_len (fq_P q)) <= c * (/ 450000 * pa_len (fq_P q))) by (apply Rmult_le_compat_l; lra).
    assert (D2 : fu_k u i * Rabs (path_pos (fq_P q) i x - path_pos (fq_P q) i (pa_len (fq_P q))) <= e).
    { apply Rle_trans with (fu_k u i * (c * (/ 450000 * pa_len (fq_P q)))); [apply Rmult_le_compat_l; lra|]. unfold e. replace (fu_k u i * (c * (/ 450000 * pa_len (fq_P q)))) with (fu_k u i * (c * pa_len (fq_P q)) / 450000) by field. lra. }
    rewrite <- (Rabs_pos_eq (fu_k u i)), <- Rabs_mult in D2 by lra. apply Rabs_le_inv in D2. rewrite Rmult_minus_distr_l in D2. lra.
Qed.

Lemma exec_time q g t : 0 < pa_len (fq_P q) -> executes u g (fq_P q) (fq_l q) -> 0 <= t <= lg_T g -> 0 <= lg_s g t <= (1 + / 450000) * pa_len (fq_P q).
Proof.
  intros LP (_ & _ & len & v & acc & PS & LE) Ht. apply Rabs_le_inv in LE. pose proof (plan_between _ _ _ _ _ _ _ _ t PS Ht). lra.
Qed.

Lemma route_about qs : trig_ok X -> forall p stops fs legs x, Forall (move_ok X M fo u) qs -> route_planned u s p stops fs qs -> Forall2 (fun g q => executes u g (fq_P q) (fq_l q)) legs qs ->
  route_in lo hi p stops -> about x ->
  (forall t, 0 <= t <= total legs -> about (where_at x legs t)) /\ about (end_of x (map lg_path legs)).
Proof.
  intro TR. induction qs as [|q qs IH]; intros p stops fs legs x MO RP EX RI AX; destruct stops as [|st stops], fs as [|f fs]; cbn [route_planned] in RP; try contradiction.
  - inversion EX; subst. split; [intros t Ht i Hi; exact (AX i Hi)|exact AX].
  - destruct RP as (WP & RP). destruct RI as (WI & RI). apply Forall_cons_iff in MO as (MQ & MO). destruct legs as [|g legs]; [inversion EX|].
    assert (EE : executes u g (fq_P q) (fq_l q) /\ Forall2 (fun g q => executes u g (fq_P q) (fq_l q)) legs qs) by (inversion EX; subst; auto). destruct EE as (EG & EL). pose proof (proj1 EG) as PG.
    pose proof (way_about p st f q TR MQ WP WI) as WA. assert (LP : 0 < pa_len (fq_P q)) by apply WP.
    assert (NE : about (fun i => path_pos (lg_path g) i (pa_len (lg_path g)))) by (rewrite PG; apply WA; lra).
    destruct (IH (to_pos st) stops fs legs _ MO RP EL RI NE) as (I1 & I2). split; [|exact I2].
    intros t Ht i Hi. unfold where_at. cbn [locate]. destruct (Rle_dec t (lg_T g)) as [L|L].
    + rewrite PG. exact (WA _ (exec_time q g t LP EG (conj (proj1 Ht) L)) i Hi).
    + assert (T2 : 0 <= t - lg_T g <= total legs). { unfold total, rsum in *. cbn [map fold_right] in Ht. lra. }
      exact (I1 _ T2 i Hi).
Qed.

Lemma along_in x c : about x -> (forall i, (i < 3)%nat -> Rabs (fu_k u i * x i - counted c i) <= reach (fu_B u) (fu_H u)) -> counts_along u lo hi c.
Proof. intros A R. unfold counts_along. cbv zeta. fold e. intros i Hi. specialize (R i Hi). specialize (A i Hi). apply Rabs_le_inv in R. lra. Qed.

Lemma stays_along w : shop_ok X M u s -> trig_ok X -> atan_ok X -> float32 w (fu_W u) ->
  forall pi c m ls c' m' outs r x0 stops fs k, pi_ok pi -> reached (g_f X) pi c m -> float64 (sm_radius m) r -> at64 X (s_cur (g_st c)) x0 ->
  GcodeModel.g_run (g_f X) pi c m ls = Ok (c', m', outs) -> reported outs -> route_fits X u s fo (s_cur (g_st c)) x0 (passed_on outs) stops fs -> (1 <= length stops <= 32)%nat ->
  idle X k w fo -> (forall i, (i < 3)%nat -> Rabs (fu_k u i * x0 i - counted k i) <= 54/100) ->
  in_box lo hi x0 -> route_in lo hi x0 stops ->
  exists k0 (n : nat), c_run (sf_arith X) M k (map (fun o => OAppend (snd o)) (passed_on outs) ++ [OStart]) = Ok (k0, []) /\
    (forall j, (j <= n)%nat -> exists kj, ticks_run (sf_arith X) M j k0 = Ok kj /\ counts_along u lo hi kj) /\
    exists kn, ticks_run (sf_arith X) M n k0 = Ok kn /\ idle X kn w fo.
Proof.
  intros SO TR AT FW pi c m ls c' m' outs r x0 stops fs k PO RE FR AP GR SL SF LN ID CL B0 RI.
  destruct (route_read X M u s fo UO SO pi AT PO ls c m c' m' outs x0 r stops fs (reached_sized _ _ _ _ RE) FR AP GR SL SF) as (_ & qs & Q1 & Q2 & Q3).
  pose proof (route_length _ _ _ _ _ _ Q3) as QL.
  destruct (route_joined u s qs x0 x0 stops fs Q3) as (JN & _). { intros i Hi. rewrite Rminus_eq_0, Rmult_0_r, Rabs_R0. lra. }
  destruct (arc_job X M fo u TR UO w FW k x0 qs ID Q2) as (k0 & legs & n & kn & R1 & R2 & R3 & R4 & R5 & R6); auto.
  { intros ->. cbn in QL. lia. } { lia. }
  destruct (route_about qs TR x0 stops fs legs x0 Q2 Q3 R2 RI (box_about x0 B0)) as (W1 & W2).
  exists k0, n. split. { rewrite <- R1. f_equal. f_equal. rewrite <- (map_map snd OAppend), <- Q1, map_map. reflexivity. }
  split; [|exists kn; auto]. intros j Hj. destruct (Nat.eq_dec j n) as [-> |NE].
  - exists kn. split; [exact R4|]. destruct R5 as (_ & _ & AD & _). exact (along_in _ kn W2 AD).
  - destruct (R3 j ltac:(lia)) as (kj & TJ & _ & t & Ht & _ & CW). exists kj. split; [exact TJ|]. exact (along_in _ kj (W1 t Ht) CW).
Qed.
(** Motions handed over while others are executed. *)
Lemma stays_streamed w : shop_ok X M u s -> trig_ok X -> atan_ok X -> float32 w (fu_W u) ->
  forall pi c m ls c' m' outs r x0 stops fs k now later, pi_ok pi -> reached (g_f X) pi c m -> float64 (sm_radius m) r -> at64 X (s_cur (g_st c)) x0 ->
  GcodeModel.g_run (g_f X) pi c m ls = Ok (c', m', outs) -> reported outs -> route_fits X u s fo (s_cur (g_st c)) x0 (passed_on outs) stops fs ->
  map snd (passed_on outs) = now ++ later -> (1 <= length now <= 32)%nat ->
  idle X k w fo -> sg_ticks (c_sig k) = 0%N -> (sg_maxTicks (c_sig k) < two32)%N -> (forall i, (i < 3)%nat -> Rabs (fu_k u i * x0 i - counted k i) <= 54/100) ->
  in_box lo hi x0 -> route_in lo hi x0 stops ->
  exists k0, c_run (sf_arith X) M k (map OAppend now ++ [OStart]) = Ok (k0, []) /\
  forall l, c_passed l = later -> c_fed X M k0 l ->
  forall n a b, l ++ repeat CCalc n = a ++ b -> exists ka recs, c_run (sf_arith X) M k0 (map call_op a) = Ok (ka, recs) /\ counts_along u lo hi ka.
Proof.
  intros SO TR AT FW pi c m ls c' m' outs r x0 stops fs k now later PO RE FR AP GR SL SF SP LN ID T0 MX CL B0 RI.
  destruct (route_read X M u s fo UO SO pi AT PO ls c m c' m' outs x0 r stops fs (reached_sized _ _ _ _ RE) FR AP GR SL SF) as (_ & qs & Q1 & Q2 & Q3).
  destruct (route_joined u s qs x0 x0 stops fs Q3) as (JN & _). { intros i Hi. rewrite Rminus_eq_0, Rmult_0_r, Rabs_R0. lra. }
  pose proof (route_unbroken u s qs x0 stops fs Q3) as UB. pose proof Q2 as Q2'.
  rewrite SP in Q1. set (qs1 := firstn (length now) qs). set (qs2 := skipn (length now) qs).
  assert (EQ : qs = qs1 ++ qs2) by (symmetry; apply firstn_skipn).
  assert (LQ : length qs = (length now + length later)%nat) by (rewrite <- (map_length fq_m), Q1, app_length; reflexivity).
  assert (L1 : length qs1 = length now) by (unfold qs1; rewrite firstn_length; lia).
  assert (E12 : map fq_m qs1 = now /\ map fq_m qs2 = later). { unfold qs1, qs2. rewrite <- firstn_map, <- skipn_map, Q1, firstn_app, skipn_app, Nat.sub_diag, firstn_all, skipn_all, firstn_O, skipn_O, app_nil_r. auto. }
  destruct E12 as (E1 & E2). rewrite EQ in Q2, JN, UB.
  destruct (flow_job X M fo u TR UO w FW k x0 qs1 qs2 ID Q2) as (k0 & R1 & _ & R2); auto.
  { intro Z. rewrite Z in L1. cbn in L1. lia. } { lia. }
  exists k0. split. { rewrite <- R1, <- E1, map_map. reflexivity. }
  intros l PL FD. destruct (R2 T0 MX l) as (legs & N & EX & CA); [congruence|exact FD|]. rewrite <- EQ in EX.
  destruct (route_about qs TR x0 stops fs legs x0 Q2' Q3 EX RI (box_about x0 B0)) as (W1 & W2).
  intros n a b AB. destruct (CA n a b AB) as (ka & recs & C1 & C2). exists ka, recs. split; [exact C1|]. cbv zeta in C2.
  destruct (Nat.ltb_spec (N.to_nat (sum_times recs)) N).
  - destruct C2 as (_ & t & Ht & _ & CW). exact (along_in _ ka (W1 t Ht) CW).
  - destruct C2 as ((_ & _ & AD & _) & _). exact (along_in _ ka W2 AD).
Qed.
End Route.

(** *** A program that goes too far. *)
Lemma far_run X : exists c m outs, GcodeModel.g_run (g_f X) pi_f (gcode0 (g_f X)) (sm_new (g_f X)) (map txt ex_far) = Ok (c, m, outs) /\
  map (fun o => (g_res (fst o), sm_type (snd o))) outs = [(OkContextUpdateOnly, mt_none); (OkContextUpdateAndMotion, feedLinear); (OkContextUpdateAndMotion, feedLinear)] /\
  map (fun o => s_cur (g_st (fst o))) (passed_on outs) = [map (nofZ (g_f X)) [0; 0; 50]%Z; map (nofZ (g_f X)) [0; 0; 100]%Z] /\
  map (fun o => sm_vFeed (snd o)) (passed_on outs) = [nofZ (g_f X) 20; nofZ (g_f X) 20].
Proof. eexists. eexists. eexists. split; [vm_compute; reflexivity|]. repeat split; vm_compute; reflexivity. Qed.

Lemma dist_z a b : 0 <= b - a -> forall l l', ex_at l 0 = 0 -> ex_at l 1 = 0 -> ex_at l' 0 = 0 -> ex_at l' 1 = 0 -> ex_at l 2 = a -> ex_at l' 2 = b -> distance (ex_at l) (ex_at l') = b - a.
Proof. intros H l l' A B C D E F. unfold distance. rewrite A, B, C, D, E, F. unfold sq. match goal with |- sqrt ?x = _ => replace x with ((b - a) * (b - a)) by ring end. now apply R_sqrt.sqrt_square. Qed.

Lemma too_far X : let A := sf_arith X in let M := cnc3axis A in let k := c_init A 375 (tickWidth A) in
  exists c m outs k0 (n : nat) kn,
    GcodeModel.g_run (g_f X) pi_f (gcode0 (g_f X)) (sm_new (g_f X)) (map txt ex_far) = Ok (c, m, outs) /\ Forall accepted outs /\
    c_run A M k (map (fun o => OAppend (snd o)) (passed_on outs) ++ [OStart]) = Ok (k0, []) /\ ticks_run A M n k0 = Ok kn /\ idle X kn (tickWidth A) (nofZ (aF A) 1) /\
    nth 2 (c_pos k) 0%Z = 0%Z /\ nth 2 (c_pos kn) 0%Z = 20000%Z /\
    exists travel steps, float32 (nth 2 (hc_sMax (cnc3axis_homing A)) S754_nan) travel /\ float32 (nthF A (m_stepsPerMm M) 2) steps /\ travel * steps = 12000.
Proof.
  cbv zeta. destruct (prog_example X) as (UO & SO & FW & ID & CL & RE & FR & AT0 & _). cbv zeta in *.
  assert (L32 : forall z, (Z.abs z <= 16777216)%Z -> float32 (nofZ (aF (sf_arith X)) z) (IZR z)) by (intros z Hz; apply fin_float32, fin_lit; auto).
  assert (AT : forall l, (forall i, (Z.abs (nth i l 0) <= 9007199254740992)%Z) -> at64 X (map (nofZ (g_f X)) l) (ex_at l)).
  { intros l Hl i Hi. unfold coord_at, ex_at. change (nofZ (g_f X) 0) with (nofZ (g_f X) 0%Z). rewrite map_nth. apply float64_lit. apply Hl. }
  destruct (far_run X) as (c & m & outs & E & E1 & E2 & E3).
  assert (D1 : distance (ex_at [0; 0; 0]%Z) (ex_at [0; 0; 50]%Z) = 50) by (rewrite (dist_z 0 50); unfold ex_at; cbn [nth]; lra).
  assert (D2 : distance (ex_at [0; 0; 50]%Z) (ex_at [0; 0; 100]%Z) = 50) by (rewrite (dist_z 50 100); unfold ex_at; cbn [nth]; lra).
  assert (ST : straight_only outs /\ Forall accepted outs).
  { unfold straight_only, accepted. destruct outs as [|o1 [|o2 [|o3 [|o4 outs]]]]; try discriminate E1. cbn [map] in E1. injection E1 as A1 A2 A3 A4 A5 A6. split.
    - do 3 (apply Forall_cons; [intros (NM & _); first [exfalso; apply NM; assumption|split; [right; assumption|assumption]]|]). apply Forall_nil.
    - do 3 (apply Forall_cons; [auto|]). apply Forall_nil. }
  assert (SF : stops_fit X ex_unit ex_shop (nofZ (aF (sf_arith X)) 1) (ex_at [0; 0; 0]%Z) (passed_on outs) [ex_at [0; 0; 50]%Z; ex_at [0; 0; 100]%Z] [Some 20; Some 20]).
  { destruct (passed_on outs) as [|o1 [|o2 [|o3 os]]]; try discriminate E2. cbn [map] in E2, E3. injection E2 as A1 A2. injection E3 as V1 V2.
    cbn [stops_fit fst snd].
    assert (FF : forall o : @gcode sf * smotion sf, sm_vFeed (snd o) = nofZ (g_f X) 20 -> feed_fits ex_shop (nofZ (aF (sf_arith X)) 1) (snd o) (Some 20)).
    { intros o Eo. exists 1. split; [apply (L32 1%Z); lia|]. split; [lra|]. exists 20. rewrite Eo. split; [apply (float64_lit X 20); lia|]. cbn [ex_shop sh_V0 sh_V1]. lra. }
    split; [rewrite A1; apply (AT [0; 0; 50]%Z); intros [|[|[|[|i]]]]; cbn; lia|]. split.
    { unfold leg_fits. rewrite D1. cbn [ex_shop ex_unit sh_L0 sh_L1 fu_k fu_B fu_H]. split; [lra|]. intros [|[|[|i]]] Hi; try lia; unfold ex_at; cbn [nth]; (split; [first [left; lra|right; unfold Rabs; destruct (Rcase_abs _); lra]|]); repeat split; try (rewrite Rabs_pos_eq by lra); lra. }
    split; [apply FF; exact V1|]. split; [rewrite A2; apply (AT [0; 0; 100]%Z); intros [|[|[|[|i]]]]; cbn; lia|]. split.
    { unfold leg_fits. rewrite D2. cbn [ex_shop ex_unit sh_L0 sh_L1 fu_k fu_B fu_H]. split; [lra|]. intros [|[|[|i]]] Hi; try lia; unfold ex_at; cbn [nth]; (split; [first [left; lra|right; unfold Rabs; destruct (Rcase_abs _); lra]|]); repeat split; try (rewrite Rabs_pos_eq by lra); lra. }
    split; [apply FF; exact V2|exact I]. }
  destruct ST as (ST & AC).
  destruct (C79_program_followed X _ _ _ _ UO SO _ FW pi_f _ _ _ c m outs _ _ _ _ _ RE FR AT0 E ST SF ltac:(cbn; lia) ID CL) as (_ & k0 & legs & n & kn & CR & _ & _ & TN & _ & IN & EN).
  exists c, m, outs, k0, n, kn. split; [exact E|]. split; [exact AC|]. split; [exact CR|]. split; [exact TN|]. split; [exact IN|]. split; [reflexivity|]. split.
  - apply EN; [lia|]. unfold ex_at, reach, slack. cbn [ex_unit fu_k fu_B fu_H nth last]. apply Rabs_def1; lra.
  - exists 60, 200. split; [apply (L32 60%Z); lia|]. split; [|lra]. destruct (fu_steps _ _ _ UO 2%nat ltac:(lia)) as (F & _). exact F.
Qed.

Lemma box_example : let lo := ex_at [0; 0; 0]%Z in let hi := ex_at [50; 40; 0]%Z in in_box lo hi (ex_at [0; 0; 0]%Z) /\ Forall (in_box lo hi) [ex_at [50; 0; 0]%Z; ex_at [20; 40; 0]%Z] /\
  forall i, (i < 3)%nat -> fu_k ex_unit i * stray lo hi i + reach (fu_B ex_unit) (fu_H ex_unit) < 95/100.
Proof.
  cbv zeta. split; [|split; [apply Forall_cons; [|apply Forall_cons; [|apply Forall_nil]]|]]; intros [|[|[|i]]] Hi; try lia; unfold ex_at, stray, reach, slack; cbn [ex_unit fu_k fu_B fu_H nth]; lra.
Qed.

Lemma quarter x : 0 <= x <= 1 -> 0 <= 20 * cos (PI / 2 * x) <= 20 /\ 0 <= 20 * sin (PI / 2 * x) <= 20.
Proof.
  intro Hx. pose proof PI_RGT_0 as P. assert (A : 0 <= PI / 2 * x <= PI / 2).
  { split; [apply Rmult_le_pos; lra|]. rewrite <- (Rmult_1_r (PI / 2)) at 2. apply Rmult_le_compat_l; lra. }
  pose proof (COS_bound (PI / 2 * x)). pose proof (SIN_bound (PI / 2 * x)). pose proof (cos_ge_0 (PI / 2 * x) ltac:(lra) ltac:(lra)). pose proof (sin_ge_0 (PI / 2 * x) ltac:(lra) ltac:(lra)). lra.
Qed.
Lemma share x l : l <> 0 -> x * l / l = x.
Proof. intro. field. assumption. Qed.
Lemma way_example : let lo := ex_at [0; 0; 0]%Z in let hi := ex_at [20; 20; 10]%Z in in_box lo hi (ex_at [0; 0; 0]%Z) /\
  route_in lo hi (ex_at [0; 0; 0]%Z) [mkStop (ex_at [20; 0; 0]%Z) None; mkStop (ex_at [0; 20; 0]%Z) (Some ex_left); mkStop (ex_at [20; 0; 10]%Z) (Some ex_back)] /\
  reach (fu_B ex_unit) (fu_H ex_unit) + fu_H ex_unit / 450000 < 97/100.
Proof.
  cbv zeta. split; [intros [|[|[|i]]] Hi; try lia; unfold ex_at; cbn [nth]; lra|]. split; [|unfold reach, slack; cbn [ex_unit fu_B fu_H]; lra].
  assert (L1 : distance (ex_at [0; 0; 0]%Z) (ex_at [20; 0; 0]%Z) <> 0).
  { unfold distance, ex_at, sq. cbn [nth]. intro H. apply sqrt_eq_0 in H; lra. }
  assert (HL : forall A p q, 0 < sq (ar_r A * ar_da A) -> helix_length A p q <> 0).
  { intros A p q H E. unfold helix_length in E. assert (0 <= sq (q (third A) - p (third A))) by (unfold sq; apply Rle_0_sqr). apply sqrt_eq_0 in E; lra. }
  pose proof PI_RGT_0 as P. assert (PP : 0 < PI * PI) by (apply Rmult_lt_0_compat; lra).
  assert (L2 : forall p q, helix_length ex_left p q <> 0) by (intros; apply HL; unfold sq; cbn [ex_left ar_r ar_da]; lra).
  assert (L3 : forall p q, helix_length ex_back p q <> 0) by (intros; apply HL; unfold sq; cbn [ex_back ar_r ar_da]; lra).
  assert (AN : forall x, PI / 2 + - (PI / 2) * x = PI / 2 * (1 - x)) by (intro; ring).
  split; [|split; [|split; [|exact I]]]; intros i x Hi Hx; cbn [way by_arc to_pos pa_len]; unfold path_pos; cbn [pa_arc pa_len ex_left ex_back ar_0 ar_1 ar_c0 ar_c1 ar_r ar_a0 ar_da]; unfold linear_pos; cbn [pa_start pa_delta pa_len];
    rewrite ?(share x _ L1), ?(share x _ (L2 _ _)), ?(share x _ (L3 _ _)); destruct i as [|[|[|i]]]; try lia; cbn [Nat.eqb]; cbv zeta; rewrite ?AN, ?Rplus_0_l; unfold ex_at; cbn [nth];
    pose proof (quarter x Hx); pose proof (quarter (1 - x) ltac:(lra)); lra.
Qed.
