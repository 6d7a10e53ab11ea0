(** Programs with arcs, read in double precision and executed in single precision. *)
Require Import List Arith NArith ZArith Bool Reals Lra Lia ZifyBool ZifyNat ZifyN.
From Coq Require Import Floats.SpecFloat.
From Flocq Require Import Zaux Raux Defs Generic_fmt FLT Float_prop Round_NE BinarySingleNaN.
From Verif Require Import Base BaseProofs Num NumR NumSF MotionModel CtrlModel CtrlSpec ProfileSpec GeomSpec RunSpec GcodeModel GcodeSpec GcodeRSpec GText GStageProofs GMeaningProofs GLineProofs.
From Verif Require Import FloatSpec FloatRunSpec FloatProgSpec FloatArcSpec FloatProofs FloatClockProofs FloatTrackProofs FloatErrProofs FloatPlanProofs FloatJobProofs FloatLimitProofs FloatReadProofs FloatArcProofs FloatBendSpec FloatBendProofs FloatFlowSpec.
Import ListNotations.
Open Scope R_scope.

Section Way.
Variables (X : sf_funs) (M : machine sf) (u : funit) (s : shop) (fo : sf).
Hypothesis UO : funit_ok X M u.
Hypothesis SO : shop_ok X M u s.
Notation K := (g_f X).
(** The way to [t] is planned; at its ends to less than a thousandth of a step. *)
Definition way_planned (p : nat -> R) (t : stop) (f : option R) (P : path) (l : flimits) : Prop :=
  same_way P (way p t) /\ 0 < pa_len P /\
  (forall i, (i < 3)%nat -> Rabs (fu_k u i * (path_pos P i 0 - p i)) <= 9/20000 /\ Rabs (fu_k u i * (path_pos P i (pa_len P) - to_pos t i)) <= 9/20000) /\
  within s f P l /\ used s f P l /\
  forall i, (i < 3)%nat -> still P i -> path_pos P i 0 = p i /\ path_pos P i (pa_len P) = to_pos t i.
(** An axis that stands still is in no plane of an arc, and it is not asked to move. *)
Lemma arc_turns P i arc : 0 < pa_len P -> pa_arc P = Some arc -> 0 < ar_r arc -> ar_da arc <> 0 -> on_arc P i = true -> still P i -> False.
Proof.
  intros L0 E R0 D0 OA ST. unfold on_arc in OA. rewrite E in OA.
  assert (AN : forall z, ar_a0 arc + ar_da arc * (z * pa_len P / ar_da arc / pa_len P) = ar_a0 arc + z) by (intro z; field; lra).
  pose proof (ST (0 * pa_len P / ar_da arc) (PI * pa_len P / ar_da arc)) as S1. pose proof (ST (0 * pa_len P / ar_da arc) (PI / 2 * pa_len P / ar_da arc)) as S2.
  unfold path_pos in S1, S2. rewrite E in S1, S2. cbv zeta in S1, S2. rewrite !AN in S1, S2. rewrite Rplus_0_r in S1, S2. pose proof (sin2_cos2 (ar_a0 arc)) as SC. unfold Rsqr in SC.
  assert (Z : forall x y, ar_r arc * x = ar_r arc * y -> x = y) by (intros x y H; apply (Rmult_eq_reg_l (ar_r arc)); lra).
  destruct (i =? ar_0 arc)%nat.
  - apply Rplus_eq_reg_l, Z in S1. apply Rplus_eq_reg_l, Z in S2. rewrite neg_cos in S1. rewrite cos_plus, cos_PI2, sin_PI2 in S2. assert (C0 : cos (ar_a0 arc) = 0) by lra. assert (Sn : sin (ar_a0 arc) = 0) by lra. rewrite C0, Sn in SC. lra.
  - cbn [orb] in OA. rewrite OA in S1, S2. apply Rplus_eq_reg_l, Z in S1. apply Rplus_eq_reg_l, Z in S2. rewrite neg_sin in S1. rewrite sin_plus, cos_PI2, sin_PI2 in S2. assert (C0 : sin (ar_a0 arc) = 0) by lra. assert (Sn : cos (ar_a0 arc) = 0) by lra. rewrite C0, Sn in SC. lra.
Qed.
Lemma line_stays P p q i : 0 < pa_len P -> on_arc P i = false -> pa_start P i = p -> Rabs (pa_delta P i - (q - p)) <= E53 * Rabs (q - p) -> still P i -> path_pos P i 0 = p /\ path_pos P i (pa_len P) = q.
Proof.
  intros L0 OA ES ED ST.
  assert (LP : forall x, path_pos P i x = linear_pos P i x). { intro x. unfold path_pos, on_arc in *. destruct (pa_arc P) as [a|]; [|reflexivity]. apply orb_false_iff in OA. destruct OA as (-> & ->). reflexivity. }
  pose proof (ST 0 (pa_len P)) as S1. rewrite !LP in *. unfold linear_pos in *. rewrite ES in *. replace (pa_len P / pa_len P) with 1 in * by (field; lra). replace (0 / pa_len P) with 0 in * by (field; lra).
  assert (D0 : pa_delta P i = 0) by lra. rewrite D0 in *. rewrite Rminus_0_l, Rabs_Ropp in ED. pose proof (Rabs_pos (q - p)). assert (Z : Rabs (q - p) = 0) by (unfold E53 in *; lra).
  assert (q = p). { destruct (Req_dec (q - p) 0) as [D|D]; [lra|]. apply Rabs_no_R0 in D. contradiction. } subst q. split; ring.
Qed.
Lemma fits_feed m f : feed_fits s fo m f -> feed_is m fo f /\ (forall g, f = Some g -> sh_V0 s <= g <= sh_V1 s) /\ (f = None -> forall i, (i < 3)%nat -> 2 * sh_v s i <= sh_V1 s).
Proof.
  destruct SO as [S1 S2 S3 (R1 & R2 & R3 & R4 & R5) (J1 & J2) (B1 & B2) S7 S8 S9].
  intros FF. destruct FF as (o & F1 & F2 & F3). destruct f as [f|].
  - destruct F3 as (g & G1 & G2 & G3). split; [|split; [intros ? E; injection E as <-; exact G3|discriminate]].
    exists o. split; auto. split; auto. exists g. split; auto. split; auto. split; [lra|]. assert (0 < g). { apply (Rmult_lt_reg_r o); lra. } split; auto.
    apply Rnot_lt_le. intro C. assert (1000000000 * / 1000 <= g * o) by (apply Rmult_le_compat; lra). lra.
  - destruct F3 as (F3 & F4). split; [exists o; auto|]. split; [discriminate|auto].
Qed.
Lemma leg_curved pi m xp xq p q A hp hq f : atan_ok X -> pi_ok pi -> (exists pl, (sm_arc0 m, sm_arc1 m) = plane_axes pl) -> sm_start m = xp ->
  let d := fun i => nsub K (coord_at K xq i) (coord_at K xp i) in
  sm_delta m = map d [0; 1; 2]%nat -> sm_startAngle m = direction K m xp -> sm_deltaAngle m = turned K pi (sm_type m) (direction K m xp) (direction K m xq) ->
  sm_length m = nsqrt K (fold_left (fun acc i => if is_arc (sm_arc0 m) (sm_arc1 m) i then acc else nadd K acc (sqd K (nthZ K (sm_delta m) i))) axes (sqd K (nmul K (sm_radius m) (nabs K (sm_deltaAngle m))))) ->
  at64 X xp p -> at64 X xq q -> arc_asked X m xp xq p q A hp hq -> arc_fits u s p q A hp hq -> feed_fits s fo m f ->
  exists P l arc, curved X M fo u m P l arc /\ way_planned p (mkStop q (Some A)) f P l.
Proof.
  intros AT (pr & FP & PE) (pl & PL) ES d ED EA EDA EL AP AQ [(E0 & E1) (C0 & C1 & CR) FR TO A0B TY CL] [(RB & RV) (H1 & H2 & H3 & H4 & HK) LB (T1 & T2 & T3) AR AS] FF.
  destruct SO as [S1 S2 S3 (R1 & R2 & R3 & R4 & R5) (J1 & J2) (B1 & B2) S7 S8 S9]. destruct UO as [U1 (U2 & U2') U3 (U4 & U4')]. pose proof PI_b as PB.
  assert (IX : (ar_0 A < 3)%nat /\ (ar_1 A < 3)%nat /\ ar_0 A <> ar_1 A /\ (third A < 3)%nat /\ (forall i, (i < 3)%nat -> is_arc (ar_0 A) (ar_1 A) i = false <-> i = third A)).
  { rewrite <- E0, <- E1. unfold third. rewrite <- E0, <- E1. destruct pl; injection PL as -> ->; (repeat split; [lia..| | ]); intro HX; destruct i as [|[|[|i]]]; cbn in *; try lia; try discriminate; reflexivity. }
  destruct IX as (L0 & L1 & LN & L3 & IX). set (i3 := third A) in *. set (d3 := q i3 - p i3) in *. set (L := helix_length A p q) in *.
  assert (HPB : / 2000 <= hp <= 1000000) by lra. assert (HQB : / 2000 <= hq <= 1000000) by lra.
  (* the angles *)
  destruct (direction_near X m xp p A _ hp AT E0 E1 L0 L1 C0 C1 AP FR HPB) as (a & k & FA & KA & AB).
  destruct (direction_near X m xq q A _ hq AT E0 E1 L0 L1 C0 C1 AQ TO HQB) as (b & k' & FB & KB & BB).
  assert (DAB : / 1000000 <= Rabs (ar_da A) <= 7) by (destruct CL as [CL|(CL & _)]; lra).
  destruct (turned_near X pi pr (sm_type m) _ _ a b (ar_a0 A) (ar_da A) k k' (fin_float64 _ _ FP) ltac:(unfold E53; lra) FA FB AB BB KA KB TY) as (da & FDA & DA).
  { destruct CL as [CL|(CL & CE)]; [left; lra|right]. split; auto. unfold direction. rewrite E0, E1, (CE (ar_0 A)), (CE (ar_1 A)) by auto. reflexivity. }
  rewrite <- EA in FA. rewrite <- EDA in FDA.
  assert (DA' : Rabs (Rabs da - Rabs (ar_da A)) <= 128 * E53) by (eapply Rle_trans; [apply Rabs_triang_inv2|exact DA]). apply Rabs_le_inv in DA'.
  (* the length *)
  assert (LE : L = sqrt (sq (ar_r A * ar_da A) + sq d3)) by reflexivity.
  assert (D3 : Rabs d3 <= L). { rewrite LE, <- sqrt_Rsqr_abs. apply sqrt_le_1_alt. unfold Rsqr, sq. pose proof (sq_nonneg (ar_r A * ar_da A)). lra. }
  assert (F3 : fin64 (d i3) (rnd53 d3)). { apply rnd_add; [apply fin_float64, (AQ _ L3)|apply fin_float64, (AP _ L3)|]. fold d3. lra. }
  assert (LEQ : sm_length m = nsqrt K (nadd K (sqd K (nmul K (sm_radius m) (nabs K (sm_deltaAngle m)))) (sqd K (d i3)))).
  { rewrite EL, ED. unfold i3, third. rewrite <- E0, <- E1. destruct pl; injection PL as -> ->; reflexivity. }
  assert (DN3 : d3 = 0 \/ L <= 100000000000000000000000 * Rabs d3) by (destruct T1 as [T1|T1]; [left; unfold d3; rewrite T1; ring|right; exact T1]).
  destruct (helix_near X _ _ _ _ da (ar_da A) d3 (fin_float64 _ _ CR) FDA F3 RB DA DAB) as (len & FL & LN' & SW & D3L & RL). { fold L in LB. rewrite <- LE. lra. } { rewrite <- LE. exact DN3. }
  rewrite <- LE in LN', RL. rewrite <- LEQ in FL. pose proof LN' as LNN. apply Rabs_le_inv in LNN. fold L in LB.
  assert (LL : 9999/10000 * L <= len <= 10001/10000 * L) by (unfold E53 in *; lra).
  assert (LA : Rabs (len - L) <= / 1000000) by (apply Rabs_le; unfold E53 in *; lra).
  pose proof LA as LA'. apply Rabs_le_inv in LA'.
  set (dl := fun i => rnd53 (q i - p i)).
  set (arc := mkArc (ar_0 A) (ar_1 A) (ar_c0 A) (ar_c1 A) (ar_r A) a da).
  assert (E3 : Rabs (rnd53 d3 - d3) <= E53 * Rabs d3).
  { pose proof tiny200. apply rnd53_rel. destruct DN3 as [E|E]; [auto|right]. apply Rle_trans with (bpow radix2 (-200)); [apply bpow_le; lia|]. lra. }
  assert (FN : rnd53 d3 = 0 \/ len <= 1000000000000000000000000 * Rabs (rnd53 d3)).
  { destruct DN3 as [E|E]; [left; rewrite E; apply rnd53_id, generic_format_0|right]. pose proof (Rabs_triang_inv d3 (rnd53 d3)) as T. rewrite (Rabs_minus_sym d3) in T. unfold E53 in *. lra. }
  assert (FD3 : float64 (nthD (sf_arith X) (sm_delta m) i3) (rnd53 d3)).
  { replace (nthD (sf_arith X) (sm_delta m) i3) with (d i3); [apply float64_fin, F3|]. rewrite ED. destruct i3 as [|[|[|i]]]; [reflexivity..|lia]. }
  assert (CB : curved_by X m dl len (ar_r A)).
  { constructor.
    - rewrite E0, E1. auto.
    - split; [apply float64_fin, FL|lra].
    - split; [auto|unfold moderate; lra].
    - intros i Hi HI. rewrite E0, E1 in HI. apply (IX i Hi) in HI. subst i. split; [exact FD3|]. split; auto. }
  destruct (fits_feed m f FF) as (FE & FBd & FN0).
  assert (VB : forall i, (i < 3)%nat -> 0 < sh_v s i /\ 0 < sh_a s i /\ 0 < sh_d s i). { intros i Hi. destruct (S2 i Hi). pose proof (S3 i Hi). lra. }
  pose proof (al_j _ _ _ _ _ _ S1) as (_ & UJ). unfold usual in UJ.
  assert (GE : gentle_arc m (sh_a s) (sh_d s) (sh_v s) (sh_j s) len (ar_r A) f).
  { split.
    - exists (sh_V1 s). split; [destruct f as [f|]; [right; exists f; split; auto; apply FBd; auto|left; auto]|].
      intros i Hi. destruct (S2 i Hi). split; (eapply Rle_trans; [exact J1|]; apply Rmult_le_compat_l; [lra|apply Rmult_le_compat; lra]).
    - exists (sh_V0 s). split; [lra|]. split; [intros i Hi; split; [auto|intros _]|].
      { eapply Rle_trans; [exact RV|]. destruct (S2 i Hi). apply Rmult_le_compat_r; lra. }
      split; [intros g E; apply FBd; auto|].
      assert (LL2 : len * len <= (1001/1000 * sh_L1 s) * (1001/1000 * sh_L1 s)) by (apply Rmult_le_compat; lra).
      assert (LJ : sh_j s * (len * len) <= sh_j s * ((1001/1000 * sh_L1 s) * (1001/1000 * sh_L1 s))) by (apply Rmult_le_compat_l; lra).
      replace (sh_j s * (1001 / 1000 * sh_L1 s * (1001 / 1000 * sh_L1 s))) with (1002001/1000000 * (sh_j s * (sh_L1 s * sh_L1 s))) in LJ by field.
      assert (0 < sh_V0 s * sh_V0 s * sh_V0 s) by (repeat apply Rmult_lt_0_compat; lra). lra. }
  destruct (arc_limits X M _ _ _ _ m dl len (ar_r A) fo f S1 CB FE GE) as (l & LJ & LLl & KE & IK & US & ST).
  set (P := mkPath len p dl (Some arc)).
  assert (OA : forall i, is_arc (sm_arc0 m) (sm_arc1 m) i = on_arc P i) by (intro i; rewrite E0, E1; reflexivity).
  assert (EM : forall i, most m dl len i = span P i) by (intro i; unfold most, span; rewrite OA; reflexivity).
  assert (EAL : forall x i, along (most m dl len) len x i = along (span P) len x i) by (intros x i; unfold along; rewrite EM; reflexivity).
  assert (WI : within s f P l).
  { split.
    - destruct KE as (K1 & K2). split; [|exact K2]. intros i Hi. change (pa_len P) with len. rewrite <- !EAL. apply (K1 i Hi).
    - cbn [pa_arc P]. intros i Hi IA. rewrite <- OA in IA. exact (IK i Hi IA). }
  assert (UD : used s f P l).
  { destruct US as ((ia & Hia & Ua) & (id & Hid & Ud) & Uv). change (pa_len P) with len. split; [exists ia; rewrite <- EAL; auto|]. split; [exists id; rewrite <- EAL; auto|].
    destruct Uv as [(i & Hi & C)|[C|(i & Hi & IA & C)]]; [left; exists i; rewrite <- EAL; auto|right; left; exact C|right; right]. cbn [pa_arc P]. exists i. rewrite <- OA. auto. }
  (* the limits found *)
  assert (SPB : forall i, (i < 3)%nat -> 0 <= Rabs (span P i) / len <= 1).
  { intros i Hi. split; [apply Rmult_le_pos; [apply Rabs_pos|left; apply Rinv_0_lt_compat; lra]|].
    apply (Rmult_le_reg_r len); [lra|]. unfold Rdiv. rewrite Rmult_assoc, Rinv_l, Rmult_1_r, Rmult_1_l by lra. unfold span. destruct (on_arc P i) eqn:OI; [cbn [pa_len P]; rewrite Rabs_pos_eq; lra|].
    apply (IX i Hi) in OI. subst i. exact D3L. }
  assert (AG : forall x i, 0 <= x -> (i < 3)%nat -> along (span P) len x i <= x).
  { intros x i Hx Hi. unfold along. rewrite <- (Rmult_1_r x) at 2. apply Rmult_le_compat_l; auto. apply SPB; auto. }
  assert (AL : forall x, along (span P) len x (ar_0 A) = x).
  { intros x. unfold along, span. cbn [on_arc pa_arc P arc ar_0]. rewrite Nat.eqb_refl. cbn [orb pa_len P]. rewrite Rabs_pos_eq by lra. field. lra. }
  assert (POS : 0 < fl_a l /\ 0 < fl_d l /\ 0 < fl_vm l). { pose proof (sd_usual _ _ _ _ _ _ _ _ _ ST) as (Q1 & Q2 & Q3 & Q4 & Q5). unfold usual in *. lra. }
  destruct POS as (Pa & Pd & Pv).
  assert (TP : 0 < fu_T u). { apply Rnot_le_lt. intro C. assert (0 <= sh_V0 s * (- fu_T u)) by (apply Rmult_le_pos; lra). lra. }
  pose proof WI as ((K1 & K2) & _). pose proof UD as ((ia & Hia & Ua) & (id & Hid & Ud) & Uv). change (pa_len P) with len in *.
  destruct (K1 _ L0) as (Ka & Kd & Kv). rewrite AL in Ka, Kd, Kv. pose proof (AG (fl_a l) ia ltac:(lra) Hia). pose proof (AG (fl_d l) id ltac:(lra) Hid).
  destruct (S2 _ L0) as (Sa & Sd). destruct (S2 ia Hia) as (Sa' & _). destruct (S2 id Hid) as (_ & Sd').
  assert (ABd : 999/1000 * sh_a0 s <= fl_a l <= 101/100 * sh_a1 s) by lra. assert (ADB : 999/1000 * sh_a0 s <= fl_d l <= 101/100 * sh_a1 s) by lra.
  assert (VL : 999/1000 * sh_V0 s <= fl_vm l).
  { destruct Uv as [(i & Hi & C)|[(g & E & C)|C]]; [pose proof (AG (fl_vm l) i ltac:(lra) Hi); pose proof (S3 i Hi); lra|pose proof (FBd g E); lra|].
    cbn [pa_arc P arc] in C. destruct C as (i & Hi & _ & C). change (ar_r arc) with (ar_r A) in C. destruct (S2 i Hi) as (Sai & _).
    assert (C' : (1 - / 250000) * sh_a s i * ar_r A <= fl_vm l * fl_vm l). { apply (Rmult_le_compat_r (ar_r A)) in C; [|lra]. replace (fl_vm l * fl_vm l / ar_r A * ar_r A) with (fl_vm l * fl_vm l) in C by (field; lra). exact C. }
    assert (C2 : sh_a0 s * ar_r A <= sh_a s i * ar_r A) by (apply Rmult_le_compat_r; lra).
    apply Rnot_lt_le. intro N. assert (fl_vm l * fl_vm l <= 999/1000 * sh_V0 s * (999/1000 * sh_V0 s)) by (apply Rmult_le_compat; lra).
    assert (0 < sh_V0 s * sh_V0 s) by (apply Rmult_lt_0_compat; lra). lra. }
  assert (VU : fl_vm l <= 1001/1000 * sh_V1 s).
  { destruct f as [g|]; [pose proof (K2 g eq_refl); pose proof (FBd g eq_refl); lra|pose proof (FN0 eq_refl _ L0); destruct (VB _ L0); lra]. }
  assert (TG : 0 < tick_gap (fu_W u) (fu_T u)) by (unfold tick_gap; lra).
  assert (V1P : 0 < sh_V1 s) by lra.
  (* positions *)
  assert (CO : forall (g : R -> R) x, (forall x y, Rabs (g x - g y) <= Rabs (x - y)) -> (forall x n, g (x + IZR n * (2 * PI)) = g x) -> 0 <= x <= 1 ->
    Rabs (ar_r A * g (a + da * x) - ar_r A * g (ar_a0 A + ar_da A * x)) <= 150 * (E53 * ar_r A)).
  { intros g x LIP PER Hx. rewrite <- Rmult_minus_distr_l, Rabs_mult, (Rabs_pos_eq (ar_r A)) by lra. rewrite (Rmult_comm E53), (Rmult_comm 150), Rmult_assoc. apply Rmult_le_compat_l; [lra|].
    rewrite <- (PER (a + da * x) (- k)%Z). eapply Rle_trans; [apply LIP|]. rewrite opp_IZR.
    replace (a + da * x + - IZR k * (2 * PI) - (ar_a0 A + ar_da A * x)) with ((a - ar_a0 A - IZR k * (2 * PI)) + (da - ar_da A) * x) by ring.
    eapply Rle_trans; [apply Rabs_triang|]. rewrite (Rabs_mult _ x), (Rabs_pos_eq x) by lra. assert (Rabs (da - ar_da A) * x <= 128 * E53 * 1) by (apply Rmult_le_compat; try lra; apply Rabs_pos). unfold E53 in *. lra. }
  set (err := fun i : nat => if on_arc P i then 150 * (E53 * ar_r A) else E53 * L).
  assert (PP : forall i x, (i < 3)%nat -> 0 <= x <= 1 -> Rabs (path_pos P i (x * len) - path_pos (way p (mkStop q (Some A))) i (x * L)) <= err i).
  { intros i x Hi Hx. unfold err. assert (X1 : x * len / len = x) by (field; lra). assert (X2 : x * L / L = x) by (field; lra). assert (0 <= E53 * L) by (unfold E53; lra). assert (0 <= E53 * ar_r A) by (unfold E53; lra).
    unfold way. cbn [by_arc to_pos]. fold L. unfold path_pos. cbn [pa_arc P arc pa_len ar_0 ar_1 ar_c0 ar_c1 ar_r ar_a0 ar_da]. rewrite X1, X2.
    pose proof (CO cos x cos_lip cos_Z Hx) as CC. pose proof (CO sin x sin_lip sin_Z Hx) as CS. apply Rabs_le_inv in CC, CS.
    cbn [on_arc pa_arc P arc ar_0 ar_1]. destruct (i =? ar_0 A)%nat eqn:I0; [apply Rabs_le; cbn [orb]; lra|]. destruct (i =? ar_1 A)%nat eqn:I1; [apply Rabs_le; cbn [orb]; lra|]. cbn [orb].
    assert (i = i3). { apply (IX i Hi). unfold is_arc. rewrite I0, I1. reflexivity. } subst i. unfold linear_pos. cbn [pa_start pa_delta pa_len P]. rewrite X1, X2. unfold dl. fold d3.
    replace (p i3 + rnd53 d3 * x - (p i3 + d3 * x)) with ((rnd53 d3 - d3) * x) by ring. rewrite Rabs_mult, (Rabs_pos_eq x) by lra.
    assert (Rabs (rnd53 d3 - d3) * x <= E53 * L * 1) by (apply Rmult_le_compat; try lra; [apply Rabs_pos|eapply Rle_trans; [exact E3|apply Rmult_le_compat_l; [unfold E53; lra|exact D3]]]). lra. }
  assert (KR : forall i, (i < 3)%nat -> fu_k u i * err i <= 1/100000).
  { intros i Hi. destruct (U1 i Hi) as (_ & UK). unfold err. destruct (on_arc P i) eqn:OI.
    - rewrite <- OA, E0, E1 in OI. assert (I' : i = ar_0 A \/ i = ar_1 A) by (unfold is_arc in OI; lia). destruct (AR i I') as (AR1 & _). pose proof (Rabs_pos (centre A i)).
      assert (fu_k u i * (ar_r A * 1) <= fu_k u i * (Rabs (centre A i) + ar_r A * (8 + 2 * Rabs (ar_da A)))).
      { apply Rmult_le_compat_l; [lra|]. assert (ar_r A * 1 <= ar_r A * (8 + 2 * Rabs (ar_da A))) by (apply Rmult_le_compat_l; lra). lra. } unfold E53. lra.
    - pose proof (AS i Hi) as A1. unfold E53. lra. }
  exists P, l, arc. split; [|split; [split; [exact LA|]|split; [cbn [pa_len P]; lra|split; [|split; [exact WI|split; [exact UD|]]]]]].
  - constructor; cbn [pa_arc pa_start pa_delta pa_len P]; try (cbn [arc ar_0 ar_1 ar_c0 ar_c1 ar_r ar_a0 ar_da]).
    + destruct TY as [(-> & _)|(-> & _)]; reflexivity.
    + repeat split; auto.
    + split; [apply float64_fin, FL|lra].
    + split; auto. split; auto. split; auto. split; apply float64_fin; auto.
    + split; [lra|]. split; [exact SW|right]. unfold E53 in *. lra.
    + intros i Hi OI. apply (IX i Hi) in OI. subst i. split; [rewrite ES; apply (AP _ L3)|]. split; [exact FD3|]. split; [exact D3L|exact FN].
    + exact ST.
    + unfold E53 in *. lra.
    + intros i Hi. destruct (U1 i Hi) as (_ & UK). pose proof (OA i) as OI. rewrite E0, E1 in OI. destruct (on_arc P i) eqn:OQ.
      * assert (I' : i = ar_0 A \/ i = ar_1 A) by (unfold is_arc in OI; lia). destruct (AR i I') as (AR1 & AR2). 
        change (centre arc i) with (centre A i). split; [|exact AR2]. eapply Rle_trans; [|exact AR1]. apply Rplus_le_compat_r, Rmult_le_compat_l; [lra|]. apply Rplus_le_compat_l, Rmult_le_compat_l; unfold E53 in *; lra.
      * apply (IX i Hi) in OI. subst i. fold i3 in T2, T3. fold L in T2, T3. split; [|lra]. eapply Rle_trans; [|exact T2]. apply Rplus_le_compat_r, Rmult_le_compat_l; lra.
    + intros i Hi. destruct (U1 i Hi) as (_ & UK). eapply Rle_trans; [|exact (AS i Hi)]. apply Rmult_le_compat_l; [lra|]. fold L. unfold over. lra.
    + assert (X1 : sh_V0 s * fu_T u <= 1000/999 * (fl_vm l * fu_T u)).
      { replace (1000 / 999 * (fl_vm l * fu_T u)) with ((1000/999 * fl_vm l) * fu_T u) by ring. apply Rmult_le_compat_r; lra. }
      split; [lra|].
      assert (IA : / fl_a l <= / (999/1000 * sh_a0 s)) by (apply Rinv_le_contravar; lra). assert (ID : / fl_d l <= / (999/1000 * sh_a0 s)) by (apply Rinv_le_contravar; lra).
      apply Rle_trans with (3 * (1001/1000 * sh_L1 s) * (/ (999/1000 * sh_a0 s) + / (999/1000 * sh_a0 s))).
      * apply Rmult_le_compat; try lra. pose proof (Rinv_0_lt_compat _ Pa). pose proof (Rinv_0_lt_compat _ Pd). lra.
      * apply (Rmult_le_reg_r (999/1000 * sh_a0 s)); [lra|]. replace (3 * (1001 / 1000 * sh_L1 s) * (/ (999 / 1000 * sh_a0 s) + / (999 / 1000 * sh_a0 s)) * (999 / 1000 * sh_a0 s)) with (6 * (1001/1000 * sh_L1 s)) by (field; lra). lra.
    + assert (fl_vm l * tick_gap (fu_W u) (fu_T u) <= 1001/1000 * sh_V1 s * tick_gap (fu_W u) (fu_T u)) by (apply Rmult_le_compat_r; lra).
      assert (0 <= sh_V1 s * tick_gap (fu_W u) (fu_T u)) by (apply Rmult_le_pos; lra). lra.
    + intros i Hi. destruct (U1 i Hi) as (_ & UK). eapply Rle_trans; [|exact (S8 i Hi)]. apply Rmult_le_compat_l; [lra|].
      rewrite <- !Rmult_assoc. apply Rmult_le_compat_r; [lra|]. unfold over. lra.
    + intros i Hi. destruct (U1 i Hi) as (_ & UK). pose proof (sq_nonneg (last_gap (fu_W u) (fu_T u))) as GN.
      assert (0 < sh_a1 s) by lra.
      split; (eapply Rle_trans; [|exact (S9 i Hi)]; apply Rmult_le_compat_l; [lra|]; rewrite <- (Rmult_assoc (201/100)), <- (Rmult_assoc over); apply Rmult_le_compat_r; [exact GN|unfold over; lra]).
  - intros i x Hi Hx. eapply Rle_trans; [apply (PP i x Hi Hx)|]. unfold err, E53. destruct (on_arc P i); lra.
  - intros i Hi. destruct (U1 i Hi) as (_ & UK). pose proof (KR i Hi) as KRi. cbn [to_pos].
    assert (EN : forall x y h th z, Rabs (path_pos P i (x * len) - y) <= err i -> Rabs (y - z) <= Rabs (h - ar_r A) -> fu_k u i * Rabs (h - ar_r A) <= / 2500 -> th = x * len -> Rabs (fu_k u i * (path_pos P i th - z)) <= 9 / 20000).
    { intros x y h th z Hy Hz Hh ->. rewrite Rabs_mult, (Rabs_pos_eq (fu_k u i)) by lra. apply Rle_trans with (fu_k u i * (err i + Rabs (h - ar_r A))); [|lra].
      apply Rmult_le_compat_l; [lra|]. replace (path_pos P i (x * len) - z) with ((path_pos P i (x * len) - y) + (y - z)) by ring. eapply Rle_trans; [apply Rabs_triang|]. lra. }
    assert (TRIG : forall h z, -1 <= z <= 1 -> Rabs (ar_r A * z - h * z) <= Rabs (h - ar_r A)).
    { intros h z Hz. rewrite <- Rmult_minus_distr_r, Rabs_mult, (Rabs_minus_sym h). rewrite <- (Rmult_1_r (Rabs (ar_r A - h))) at 2. apply Rmult_le_compat_l; [apply Rabs_pos|apply Rabs_le; lra]. }
    destruct (HK i Hi) as (HK1 & HK2). split.
    + apply (EN 0 _ hp _ (p i) (PP i 0 Hi ltac:(lra))); [|exact HK1|ring]. unfold way. cbn [by_arc to_pos]. fold L. unfold path_pos. cbn [pa_arc pa_len]. replace (ar_a0 A + ar_da A * (0 * L / L)) with (ar_a0 A) by (unfold Rdiv; ring).
      destruct FR as (FR0 & FR1). destruct (i =? ar_0 A)%nat eqn:I0; [apply Nat.eqb_eq in I0; rewrite I0, FR0; pose proof (TRIG hp (cos (ar_a0 A)) (COS_bound _)) as T; eapply Rle_trans; [|exact T]; right; f_equal; ring|].
      destruct (i =? ar_1 A)%nat eqn:I1; [apply Nat.eqb_eq in I1; rewrite I1, FR1; pose proof (TRIG hp (sin (ar_a0 A)) (SIN_bound _)) as T; eapply Rle_trans; [|exact T]; right; f_equal; ring|].
      unfold linear_pos. cbn [pa_start pa_delta pa_len]. replace (p i + (q i - p i) * (0 * L / L) - p i) with 0 by (unfold Rdiv; ring). rewrite Rabs_R0. apply Rabs_pos.
    + apply (EN 1 _ hq _ (q i) (PP i 1 Hi ltac:(lra))); [|exact HK2|cbn [pa_len P]; ring]. unfold way. cbn [by_arc to_pos]. fold L. unfold path_pos. cbn [pa_arc pa_len]. replace (ar_a0 A + ar_da A * (1 * L / L)) with (ar_a0 A + ar_da A) by (field; lra).
      destruct TO as (FR0 & FR1). destruct (i =? ar_0 A)%nat eqn:I0; [apply Nat.eqb_eq in I0; rewrite I0, FR0; pose proof (TRIG hq (cos (ar_a0 A + ar_da A)) (COS_bound _)) as T; eapply Rle_trans; [|exact T]; right; f_equal; ring|].
      destruct (i =? ar_1 A)%nat eqn:I1; [apply Nat.eqb_eq in I1; rewrite I1, FR1; pose proof (TRIG hq (sin (ar_a0 A + ar_da A)) (SIN_bound _)) as T; eapply Rle_trans; [|exact T]; right; f_equal; ring|].
      unfold linear_pos. cbn [pa_start pa_delta pa_len]. replace (p i + (q i - p i) * (1 * L / L) - q i) with 0 by (field; lra). rewrite Rabs_R0. apply Rabs_pos.
  - intros i Hi SL. cbn [to_pos]. destruct (on_arc P i) eqn:OQ.
    + exfalso. refine (arc_turns P i arc _ eq_refl _ _ OQ SL); [cbn [pa_len P]; lra|cbn [ar_r arc]; lra|]. cbn [ar_da arc]. intros D0. rewrite D0, Rabs_R0 in DA'. unfold E53 in *. lra.
    + apply line_stays; auto; [cbn [pa_len P]; lra|]. pose proof OQ as OI. apply (IX i Hi) in OI. subst i. exact E3.
Qed.
Lemma way_straight m xp xq p q rr r f : is_line_type (sm_type m) -> sm_arc0 m = 3%nat -> sm_arc1 m = 3%nat -> sm_start m = xp ->
  let d := fun i => nsub K (coord_at K xq i) (coord_at K xp i) in
  sm_delta m = map d [0; 1; 2]%nat ->
  sm_length m = nsqrt K (nadd K (nadd K (nadd K (sqd K (nmul K rr (nabs K (nofZ K 0)))) (sqd K (d 0%nat))) (sqd K (d 1%nat))) (sqd K (d 2%nat))) ->
  float64 rr r -> at64 X xp p -> at64 X xq q -> leg_fits u s p q -> feed_fits s fo m f ->
  exists P l, straight X M fo u m P l /\ way_planned p (mkStop q None) f P l.
Proof.
  intros LT A0 A1 ES d ED EL FR AP AQ LF FF.
  destruct (leg_straight X M u s fo UO SO m xp xq p q rr r f LT A0 A1 ES ED EL FR AP AQ LF FF) as (P & l & ST & PA & PS & PL & KE & US).
  exists P, l. split; auto. destruct LF as (LB & LR). destruct SO as [_ _ _ (_ & _ & _ & R4 & R5) _ _ _ _ _]. destruct UO as [U1 (_ & U2') _ _].
  destruct P as [len st dl ar]. cbn [pa_arc pa_start pa_delta pa_len] in *. subst ar. set (L := distance p q) in *. assert (L0 : 0 < L) by lra.
  pose proof PL as PL'. apply Rabs_le_inv in PL'. unfold E53 in PL'. assert (LN0 : 0 < len) by lra.
  assert (PP : forall i x, path_pos (mkPath len st dl None) i (x * len) = st i + dl i * x). { intros i x. unfold path_pos, linear_pos. cbn [pa_arc pa_start pa_delta pa_len]. replace (x * len / len) with x by (field; lra). reflexivity. }
  assert (DQ : forall i, (i < 3)%nat -> Rabs (dl i - (q i - p i)) <= E53 * L). { intros i Hi. destruct (PS i Hi) as (_ & H). eapply Rle_trans; [exact H|]. apply Rmult_le_compat_l; [unfold E53; lra|apply distance_ge; auto]. }
  split; [split|].
  - cbn [pa_len way by_arc to_pos]. fold L. apply Rabs_le. lra.
  - intros i x Hi Hx. cbn [pa_len]. rewrite PP. unfold way. cbn [by_arc to_pos]. fold L. cbn [pa_len]. unfold path_pos, linear_pos. cbn [pa_arc pa_start pa_delta pa_len]. replace (x * L / L) with x by (field; lra).
    rewrite (proj1 (PS i Hi)). replace (p i + dl i * x - (p i + (q i - p i) * x)) with ((dl i - (q i - p i)) * x) by ring. rewrite Rabs_mult, (Rabs_pos_eq x) by lra. pose proof (DQ i Hi) as H.
    assert (Rabs (dl i - (q i - p i)) * x <= E53 * L * 1) by (apply Rmult_le_compat; try lra; apply Rabs_pos). unfold E53 in *. lra.
  - cbn [pa_len]. split; [exact LN0|]. split.
    { intros i Hi. destruct (U1 i Hi) as (_ & UK). destruct (PS i Hi) as (ESt & _). destruct (LR i Hi) as (_ & _ & L2 & _). fold L in L2. pose proof (DQ i Hi) as H. cbn [to_pos].
      replace 0 with (0 * len) by ring. replace (path_pos (mkPath len st dl None) i len) with (path_pos (mkPath len st dl None) i (1 * len)) by (f_equal; ring). rewrite !PP, ESt.
      replace (p i + dl i * 0 - p i) with 0 by ring. rewrite Rmult_0_r, Rabs_R0. split; [lra|]. replace (p i + dl i * 1 - q i) with (dl i - (q i - p i)) by ring. rewrite Rabs_mult, (Rabs_pos_eq (fu_k u i)) by lra.
      apply Rle_trans with (fu_k u i * (E53 * L)); [apply Rmult_le_compat_l; lra|]. unfold E53. lra. }
    split; [split; [exact KE|exact I]|]. destruct US as (Ua & Ud & Uv). split; [split; [exact Ua|]; split; [exact Ud|]; destruct Uv as [Uv|Uv]; auto|].
    intros i Hi SL. cbn [to_pos]. apply line_stays; auto; apply (PS i Hi).
Qed.

(** *** A program. *)
Fixpoint route_planned (p : nat -> R) (stops : list stop) (fs : list (option R)) (qs : list fmotion) : Prop :=
  match stops, fs, qs with
  | [], [], [] => True
  | t :: stops', f :: fs', g :: qs' => way_planned p t f (fq_P g) (fq_l g) /\ route_planned (to_pos t) stops' fs' qs'
  | _, _, _ => False
  end.
Lemma route_read pi : atan_ok X -> pi_ok pi -> forall ls c m c' m' outs p r stops fs, sized (g_st c) -> float64 (sm_radius m) r -> at64 X (s_cur (g_st c)) p ->
  g_run K pi c m ls = Ok (c', m', outs) -> reported outs -> route_fits X u s fo (s_cur (g_st c)) p (passed_on outs) stops fs ->
  at64 X (s_cur (g_st c')) (last (map to_pos stops) p) /\
  exists qs, map fq_m qs = map snd (passed_on outs) /\ Forall (move_ok X M fo u) qs /\ route_planned p stops fs qs.
Proof.
  intros AT PO. induction ls as [|l ls IH]; intros c m c' m' outs p r stops fs SZ FR AP H RP SF; cbn [GcodeModel.g_run] in H.
  - injection H as <- <- <-. cbn in SF. destruct stops, fs; try contradiction. split; [exact AP|]. exists []. repeat split; constructor.
  - unfold rbind in H. destruct (g_line K pi c m l) as [[c1 m1]|] eqn:E; [|discriminate]. cbn [fst snd] in H.
    destruct (GcodeModel.g_run K pi c1 m1 ls) as [[[c2 m2] outs2]|] eqn:E2; [|discriminate]. cbn [fst snd] in H. injection H as <- <- <-.
    destruct (sized_line _ _ _ _ _ _ _ SZ E) as (S1 & _). inversion RP as [|o os RP1 RP2]; subst. cbn [fst snd] in RP1.
    destruct (read_line K pi c m l c1 m1 SZ E) as [(N & A & B & C)|(A & B)].
    + assert (EF : passed_on ((c1, m1) :: outs2) = passed_on outs2). { unfold passed_on. cbn [filter fst]. destruct (g_res c1); try reflexivity. congruence. }
      rewrite EF in *. pose proof (eq_ind_r (fun z => float64 z r) FR C) as FR1. rewrite <- A in AP, SF. apply (IH c1 m1 c2 m2 outs2 p r); auto.
    + pose proof (RP1 A) as RS.
      assert (EF : passed_on ((c1, m1) :: outs2) = (c1, m1) :: passed_on outs2). { unfold passed_on. cbn [filter fst]. rewrite RS. reflexivity. }
      rewrite EF in *. cbn [route_fits] in SF. destruct stops as [|t stops]; [contradiction|]. destruct fs as [|f fs]; [contradiction|]. cbn [fst snd] in SF. destruct SF as (AQ & WF & FF & SF).
      assert (W : exists P l0 r', float64 (sm_radius m1) r' /\ move_ok X M fo u (mkFQ m1 P l0) /\ way_planned p t f P l0).
      { destruct t as [q [Ar|]]; unfold way_fits in WF; cbn [by_arc to_pos] in WF.
        - destruct WF as (hp & hq & AA & AF). assert (HH : is_helical (sm_type m1) = true) by (destruct (aa_turn _ _ _ _ _ _ _ _ _ AA) as [(-> & _)|(-> & _)]; reflexivity).
          destruct (read_arc K pi c m l c1 m1 SZ E A HH) as (B1 & B2 & B3 & B4 & B5 & B6).
          destruct (leg_curved pi m1 _ _ p q Ar hp hq f AT PO (ex_intro _ _ B1) B2 B3 B4 B5 B6 AP AQ AA AF FF) as (P & l0 & arc & CU & WP).
          exists P, l0, (ar_r Ar). split; [apply (proj2 (proj2 (aa_circle _ _ _ _ _ _ _ _ _ AA)))|]. split; [right; exists arc; exact CU|exact WP].
        - destruct WF as (LT & LF). destruct (B LT) as (B1 & B2 & B3 & B4 & B5). cbv zeta in B5. destruct B5 as (B5 & B6).
          destruct (way_straight m1 _ _ p q _ r f LT B2 B3 B4 B5 B6 FR AP AQ LF FF) as (P & l0 & ST & WP).
          exists P, l0, r. split; [exact (eq_ind_r (fun z => float64 z r) FR B1)|]. split; [left; exact ST|exact WP]. }
      destruct W as (P & l0 & r' & FR1 & MO & WP).
      destruct (IH c1 m1 c2 m2 outs2 (to_pos t) r' stops fs S1 FR1 AQ E2 RP2 SF) as (I1 & qs & I2 & I3 & I4).
      cbn [map]. split; [rewrite last_head; exact I1|].
      exists (mkFQ m1 P l0 :: qs). cbn [map fq_m snd]. split; [now rewrite I2|]. split; [constructor; [exact MO|exact I3]|]. cbn [route_planned fq_P fq_l]. auto.
Qed.
Lemma route_joined qs : forall p p' stops fs, route_planned p stops fs qs -> (forall i, (i < 3)%nat -> Rabs (fu_k u i * (p' i - p i)) <= 9/20000) ->
  joined (fu_k u) p' (map fq_P qs) /\ forall i, (i < 3)%nat -> Rabs (fu_k u i * (end_of p' (map fq_P qs) i - last (map to_pos stops) p i)) <= 9/20000.
Proof.
  induction qs as [|g qs IH]; intros p p' stops fs H C; cbn [route_planned] in H; destruct stops as [|t stops], fs as [|f fs]; try contradiction.
  - cbn. auto.
  - destruct H as ((_ & _ & LP & _) & H). cbn [map joined end_of]. rewrite last_head.
    destruct (IH (to_pos t) (fun i => path_pos (fq_P g) i (pa_len (fq_P g))) stops fs H) as (J & E). { intros i Hi. apply (LP i Hi). }
    split; [split; [|exact J]|exact E]. intros i Hi. pose proof (C i Hi) as C1. destruct (LP i Hi) as (C2 & _).
    replace (fu_k u i * (path_pos (fq_P g) i 0 - p' i)) with (fu_k u i * (path_pos (fq_P g) i 0 - p i) - fu_k u i * (p' i - p i)) by ring. apply Rabs_le_inv in C1, C2. apply Rabs_le. lra.
Qed.
Lemma route_unbroken qs : forall p stops fs, route_planned p stops fs qs -> unbroken (map fq_P qs).
Proof.
  induction qs as [|g qs IH]; intros p stops fs H; [exact I|]. cbn [route_planned] in H. destruct stops as [|t stops], fs as [|f fs]; try contradiction. destruct H as (W1 & H). pose proof (IH _ _ _ H) as U.
  destruct qs as [|g' qs]; [exact I|]. split; [|exact U]. cbn [route_planned] in H. destruct stops as [|t' stops], fs as [|f' fs]; try contradiction. destruct H as (W2 & _).
  destruct W1 as (_ & _ & _ & _ & _ & W1). destruct W2 as (_ & _ & _ & _ & _ & W2). intros i Hi S1 S2. rewrite (proj1 (W2 i Hi S2)). symmetry. apply (W1 i Hi S1).
Qed.
Lemma route_executed qs : forall p stops fs legs, route_planned p stops fs qs -> Forall2 (fun g q => executes u g (fq_P q) (fq_l q)) legs qs -> route_done u s p stops fs legs /\ map lg_path legs = map fq_P qs.
Proof.
  induction qs as [|g qs IH]; intros p stops fs legs H F; inversion F; subst; cbn [route_planned] in H; destruct stops as [|t stops], fs as [|f fs]; try contradiction.
  - cbn. auto.
  - destruct H as ((A & L & _ & S3 & S4 & _) & H). destruct (IH (to_pos t) stops fs l H) as (I1 & I2); [assumption|]. cbn [route_done map].
    match goal with E : executes u ?y _ _ |- _ => pose proof E as EX; destruct E as (EP & _) end. split; [|now rewrite EP, I2].
    split; [|exact I1]. unfold way_done. rewrite EP. split; auto. exists (fq_l g). auto.
Qed.
Lemma route_length qs : forall p stops fs, route_planned p stops fs qs -> length qs = length stops.
Proof. induction qs as [|g qs IH]; intros p stops fs H; cbn [route_planned] in H; destruct stops as [|q stops], fs as [|f fs]; try contradiction; [reflexivity|]. cbn. f_equal. eapply IH. apply H. Qed.
Lemma route_lemma w : trig_ok X -> atan_ok X -> float32 w (fu_W u) -> forall pi c m ls c' m' outs r x0 stops fs k, pi_ok pi -> sized (g_st c) -> float64 (sm_radius m) r -> at64 X (s_cur (g_st c)) x0 ->
  g_run K pi c m ls = Ok (c', m', outs) -> reported outs -> route_fits X u s fo (s_cur (g_st c)) x0 (passed_on outs) stops fs -> (1 <= length stops <= 32)%nat ->
  idle X k w fo -> (forall i, (i < 3)%nat -> Rabs (fu_k u i * x0 i - counted k i) <= 54/100) ->
  let x1 := last (map to_pos stops) x0 in
  at64 X (s_cur (g_st c')) x1 /\
  exists k0 legs (n : nat) kn,
    c_run (sf_arith X) M k (map (fun o => OAppend (snd o)) (passed_on outs) ++ [OStart]) = Ok (k0, []) /\
    route_done u s x0 stops fs legs /\
    (forall j, (j < n)%nat -> exists kj, ticks_run (sf_arith X) M j k0 = Ok kj /\ under_way u x0 legs kj j) /\
    ticks_run (sf_arith X) M n k0 = Ok kn /\ all_done u x0 legs kn n /\ idle X kn w fo /\
    forall i z, (i < 3)%nat -> Rabs (fu_k u i * x1 i - IZR z) < 999/1000 - reach (fu_B u) (fu_H u) -> nth i (c_pos kn) 0%Z = z.
Proof.
  intros TR AT FW pi c m ls c' m' outs r x0 stops fs k PO SZ FR AP GR SL SF LN ID CL x1.
  destruct (route_read pi AT PO ls c m c' m' outs x0 r stops fs SZ FR AP GR SL SF) as (AE & qs & Q1 & Q2 & Q3). split; [exact AE|].
  pose proof (route_length _ _ _ _ Q3) as QL.
  destruct (route_joined qs x0 x0 stops fs Q3) as (JN & JE). { intros i Hi. rewrite Rminus_eq_0, Rmult_0_r, Rabs_R0. lra. }
  destruct (arc_job X M fo u TR UO w FW k x0 qs ID Q2) as (k0 & legs & n & kn & R1 & R2 & R3 & R4 & R5 & R6); auto.
  { intros ->. cbn in QL. lia. } { lia. }
  destruct (route_executed qs x0 stops fs legs Q3 R2) as (LD & EP).
  exists k0, legs, n, kn. split. { rewrite <- R1. f_equal. f_equal. rewrite <- (map_map snd OAppend), <- Q1, map_map. reflexivity. }
  do 5 (split; [assumption|]). intros i z Hi HZ. apply (landing_lemma u x0 legs kn n i z R5 Hi). rewrite EP.
  pose proof (JE i Hi) as J. fold x1 in J. pose proof (Rabs_triang (fu_k u i * (end_of x0 (map fq_P qs) i - x1 i)) (fu_k u i * x1 i - IZR z)) as T.
  replace (fu_k u i * (end_of x0 (map fq_P qs) i - x1 i) + (fu_k u i * x1 i - IZR z)) with (fu_k u i * end_of x0 (map fq_P qs) i - IZR z) in T by ring. lra.
Qed.
End Way.
