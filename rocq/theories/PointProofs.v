(** Positions along a motion. *)
Require Import List Arith NArith ZArith Bool Reals Lra Lia.
From Coq Require Import Floats.SpecFloat.
From Flocq Require Import Zaux Raux Defs BinarySingleNaN.
From Verif Require Import Base BaseProofs Num NumSF NumR MotionModel CtrlModel CtrlSpec CtrlRSpec GeomSpec GeomProofs StopWitness.
From Verif Require Import FloatSpec FloatProofs FloatClockProofs FloatTrackProofs PointModel.
Import ListNotations.
Open Scope R_scope.

Section Any.
Context {D F : Type} (A : arith D F) (M : machine F).
Lemma point_mm o i s : pt_axis_mm A (mo_traj o) i s = mo_position A o i s.
Proof. reflexivity. Qed.

Lemma point_gather (o : motion F) s (p : point F) (z : nat -> Z) : length (pt_mm p) = 3%nat -> length (pt_steps p) = 3%nat ->
  (forall i, (i < 3)%nat -> mo_isMoving A o i = true -> pt_axis_steps A M i (mo_position A o i s) = Ok (z i)) ->
  exists p', positionFromDistance A M o p s = Ok p' /\ length (pt_mm p') = 3%nat /\ length (pt_steps p') = 3%nat /\
    forall i, (i < 3)%nat -> if mo_isMoving A o i then nthF A (pt_mm p') i = mo_position A o i s /\ nth i (pt_steps p') 0%Z = z i
                             else nthF A (pt_mm p') i = nthF A (pt_mm p) i /\ nth i (pt_steps p') 0%Z = nth i (pt_steps p) 0%Z.
Proof.
  intros L1 L2 H. destruct p as [a b]. cbn [pt_mm pt_steps] in *.
  destruct a as [|a0 [|a1 [|a2 [|]]]]; try discriminate. destruct b as [|b0 [|b1 [|b2 [|]]]]; try discriminate.
  pose proof (H 0%nat ltac:(lia)) as H0. pose proof (H 1%nat ltac:(lia)) as H1. pose proof (H 2%nat ltac:(lia)) as H2. clear H.
  unfold positionFromDistance, axes. cbn [pt_axes]. rewrite !point_mm.
  destruct (mo_isMoving A o 0) eqn:E0; [rewrite (H0 eq_refl)|]; cbn [rbind];
  (destruct (mo_isMoving A o 1) eqn:E1; [rewrite (H1 eq_refl)|]; cbn [rbind]);
  (destruct (mo_isMoving A o 2) eqn:E2; [rewrite (H2 eq_refl)|]; cbn [rbind]);
  (eexists; split; [reflexivity|]; split; [reflexivity|]; split; [reflexivity|];
   intros [|[|[|i]]] Hi; [rewrite E0|rewrite E1|rewrite E2|lia]; split; reflexivity).
Qed.
End Any.

(** *** Exact arithmetic *)
Lemma trunc_bounds x : Rabs (IZR (rtrunc x)) <= Rabs x < Rabs (IZR (rtrunc x)) + 1 /\ 0 <= x * IZR (rtrunc x).
Proof.
  assert (P : forall y, 0 <= y -> 0 <= IZR (Int_part y) /\ IZR (Int_part y) <= y < IZR (Int_part y) + 1).
  { intros y Hy. destruct (base_Int_part y) as [B1 B2]. split; [|lra]. apply IZR_le. assert (-1 < Int_part y)%Z; [|lia]. apply lt_IZR. lra. }
  unfold rtrunc. destruct (Rle_dec 0 x) as [H|H].
  - destruct (P x H) as (Q1 & Q2). rewrite !Rabs_pos_eq by lra. split; [lra|]. apply Rmult_le_pos; lra.
  - destruct (P (- x) ltac:(lra)) as (Q1 & Q2). rewrite opp_IZR, Rabs_Ropp, (Rabs_pos_eq (IZR _)) by lra. rewrite (Rabs_left x) by lra. split; [lra|].
    replace (x * - IZR (Int_part (- x))) with (- x * IZR (Int_part (- x))) by ring. apply Rmult_le_pos; lra.
Qed.

Lemma point_exact M r m P o (p : point xr) s : machine_is M r -> describes m P -> path_ok P -> mo_traj o = traj_set x_arith m ->
  length (pt_mm p) = 3%nat -> length (pt_steps p) = 3%nat -> (forall i, (i < 3)%nat -> Rabs (path_pos P i s * rm_k r i) < 2147483648) ->
  exists p', positionFromDistance x_arith M o p (XF s) = Ok p' /\
    forall i, (i < 3)%nat -> (mo_isMoving x_arith o i = false -> nthF x_arith (pt_mm p') i = nthF x_arith (pt_mm p) i /\ nth i (pt_steps p') 0%Z = nth i (pt_steps p) 0%Z /\
                                forall s', path_pos P i s' = path_pos P i 0) /\
      (mo_isMoving x_arith o i = true -> nthF x_arith (pt_mm p') i = XF (path_pos P i s) /\
        let z := IZR (nth i (pt_steps p') 0%Z) in let x := path_pos P i s * rm_k r i in Rabs z <= Rabs x < Rabs z + 1 /\ 0 <= x * z).
Proof.
  intros (_ & _ & MI) DS OK TR L1 L2 RG. set (z := fun i => rtrunc (path_pos P i s * rm_k r i)).
  destruct (point_gather x_arith M o (XF s) p z L1 L2) as (p' & R & _ & _ & G).
  - intros i Hi _. rewrite (position_eq m P DS OK o i s TR Hi). unfold pt_axis_steps. destruct (MI i Hi) as (_ & _ & _ & MK & _). rewrite MK.
    change (ntoZ (aF x_arith) (nmul (aF x_arith) (XF (path_pos P i s)) (XF (rm_k r i)))) with (Some (z i)).
    assert (B : int32_ok (z i) = true); [|cbv beta iota; rewrite B; reflexivity].
    destruct (trunc_bounds (path_pos P i s * rm_k r i)) as ((T1 & _) & _). fold (z i) in T1. specialize (RG i Hi).
    assert (AB : (Z.abs (z i) < 2147483648)%Z) by (apply lt_IZR; rewrite abs_IZR; lra).
    unfold int32_ok. apply andb_true_iff. split; apply Z.leb_le; lia.
  - exists p'. split; [exact R|]. intros i Hi. specialize (G i Hi). split; intro E; rewrite E in G; destruct G as [G1 G2].
    + split; [exact G1|]. split; [exact G2|]. intro s'. apply (not_moving m P DS OK o i TR Hi E).
    + rewrite G1, (position_eq m P DS OK o i s TR Hi). split; [reflexivity|]. cbv zeta. rewrite G2. apply trunc_bounds.
Qed.

(** *** binary32 *)
Lemma toZ_trunc x r : fin32 x r -> exists z, sf_toZ x = Some z /\ Rabs (IZR z - r) <= 1 /\ Rabs (IZR z) <= Rabs r.
Proof.
  intro F. apply fin_value in F. destruct x as [s|s| |s m e]; try contradiction; cbn [sf_toZ].
  - exists 0%Z. subst r. split; [reflexivity|]. rewrite Rminus_0_r, Rabs_R0. lra.
  - eexists. split; [reflexivity|]. destruct (Z.leb_spec 0 e) as [L|L].
    + rewrite bpow_pos' in F by auto. rewrite <- mult_IZR in F. subst r.
      assert (E : (if s then - (Z.pos m * 2 ^ e) else Z.pos m * 2 ^ e)%Z = (cond_Zopp s (Z.pos m) * 2 ^ e)%Z) by (destruct s; cbn [cond_Zopp]; lia).
      rewrite E. unfold Rminus. rewrite Rplus_opp_r, Rabs_R0. lra.
    + rewrite bpow_neg in F by auto. assert (0 < 2 ^ (- e))%Z as DP by (apply Z.pow_pos_nonneg; lia). set (d := (2 ^ (- e))%Z) in *.
      assert (DR : 0 < IZR d) by (apply (IZR_lt 0); auto). set (n := (Z.pos m / d)%Z).
      assert (N0 : (0 <= n)%Z) by (apply Z.div_pos; lia).
      assert (N : (d * n <= Z.pos m < d * n + d)%Z).
      { unfold n. pose proof (Z.div_mod (Z.pos m) d ltac:(lia)). pose proof (Z.mod_pos_bound (Z.pos m) d ltac:(lia)). lia. }
      destruct N as [N1 N2]. apply IZR_le in N1, N0. apply IZR_lt in N2. rewrite plus_IZR in N2. rewrite mult_IZR in N1, N2.
      set (q := IZR (Z.pos m) * / IZR d). assert (Q : IZR (Z.pos m) = q * IZR d) by (unfold q; field; lra). rewrite Q in N1, N2.
      assert (B1 : IZR n <= q) by (apply Rmult_le_reg_r with (IZR d); lra). assert (B2 : q <= IZR n + 1) by (apply Rmult_le_reg_r with (IZR d); lra).
      assert (AN : Rabs (IZR n) = IZR n) by (apply Rabs_pos_eq; lra). assert (AQ : Rabs q = q) by (apply Rabs_pos_eq; lra).
      destruct s; cbn [cond_Zopp] in F.
      * change (Z.neg m) with (- Z.pos m)%Z in F. rewrite opp_IZR in F. assert (RQ : r = - q) by (unfold q; lra). rewrite RQ, opp_IZR, !Rabs_Ropp, AN, AQ.
        split; [|lra]. apply Rabs_le. lra.
      * fold q in F. rewrite F, AN, AQ. split; [|lra]. apply Rabs_le. lra.
Qed.

Lemma point_single X M (k : nat -> R) o (p : point sf) s : let A := sf_arith X in (forall i, (i < 3)%nat -> float32 (nthF A (m_stepsPerMm M) i) (k i)) ->
  length (pt_mm p) = 3%nat -> length (pt_steps p) = 3%nat ->
  forall x, (forall i, (i < 3)%nat -> mo_isMoving A o i = true -> float32 (mo_position A o i s) (x i) /\ Rabs (x i * k i) <= 1000000) ->
  exists p', positionFromDistance A M o p s = Ok p' /\ forall i, (i < 3)%nat -> mo_isMoving A o i = true ->
    nthF A (pt_mm p') i = mo_position A o i s /\ Rabs (IZR (nth i (pt_steps p') 0%Z) - x i * k i) <= 1 + / 16.
Proof.
  intros A HK L1 L2 x HX.
  assert (S1 : forall i, (i < 3)%nat -> mo_isMoving A o i = true -> exists z, pt_axis_steps A M i (mo_position A o i s) = Ok z /\ Rabs (IZR z - x i * k i) <= 1 + / 16).
  { intros i Hi E. destruct (HX i Hi E) as [FX B]. destruct (prod_fin X M i (k i) (HK i Hi) _ _ 1000000 FX B ltac:(lra)) as (y & FY & EY). fold A in FY.
    destruct (toZ_trunc _ _ FY) as (z & TZ & T1 & T2). exists z. unfold pt_axis_steps. change (ntoZ (aF A)) with sf_toZ. rewrite TZ.
    unfold eps, eta in EY. apply Rabs_le_inv in EY. apply Rabs_le_inv in T1. apply Rabs_le_inv in B.
    assert (I : int32_ok z = true).
    { unfold int32_ok. apply andb_true_iff. split; apply Z.leb_le; apply le_IZR; lra. }
    cbv beta iota. rewrite I. split; [reflexivity|]. apply Rabs_le. lra. }
  assert (S2 : exists z : nat -> Z, forall i, (i < 3)%nat -> mo_isMoving A o i = true -> pt_axis_steps A M i (mo_position A o i s) = Ok (z i) /\ Rabs (IZR (z i) - x i * k i) <= 1 + / 16).
  { exists (fun i => match pt_axis_steps A M i (mo_position A o i s) with Ok z => z | UB => 0%Z end). intros i Hi E. destruct (S1 i Hi E) as (z & -> & B). auto. }
  destruct S2 as (z & S2). destruct (point_gather A M o s p z L1 L2) as (p' & R & _ & _ & G); [intros i Hi E; apply S2; auto|].
  exists p'. split; [exact R|]. intros i Hi E. specialize (G i Hi). rewrite E in G. destruct G as [G1 G2]. split; [exact G1|]. rewrite G2. apply S2; auto.
Qed.

(** *** Runs *)
Section Witness.
Variable X : sf_funs.
Let A := sf_arith X.
Let M := cnc3axis A.
Definition planned_alone {D F} (A : arith D F) (M : machine F) (m : smotion D) : motion F := mo_set A M (mo_zero A) m (nofZ (aF A) 1) maximizeSpeed.
(** From X0 Y5 to X10 Y5. *)
Definition sideways {D F} (A : arith D F) : smotion D :=
  mkSM feedLinear (nofZ (aD A) 10) [nofZ (aD A) 0; nofZ (aD A) 5; nofZ (aD A) 0] [nofZ (aD A) 10; nofZ (aD A) 0; nofZ (aD A) 0] 3 3
       (nofZ (aD A) 0) (nofZ (aD A) 0) (nofZ (aD A) 0) (nofZ (aD A) 0) (nofZ (aD A) 0) (nofZ (aD A) 10) (nofZ (aD A) 0) false false (nofZ (aD A) 0) true.
Lemma still_wrong : let o := planned_alone A M (sideways A) in
  exists p, positionFromDistance A M o (pt_zero A) (nofZ (aF A) 0) = Ok p /\ nthF A (pt_mm p) 1 = nofZ (aF A) 0 /\ nth 1 (pt_steps p) 0%Z = 0%Z /\
    mo_position A o 1 (nofZ (aF A) 0) = nofZ (aF A) 5.
Proof.
  cbv zeta. destruct (point_gather A M (planned_alone A M (sideways A)) (nofZ (aF A) 0) (pt_zero A) (fun _ => 0%Z) eq_refl eq_refl) as (p & R & _ & _ & G).
  { intros [|[|[|i]]] Hi; [intros _; vm_compute; reflexivity|intro E; vm_compute in E; discriminate..|lia]. }
  exists p. split; [exact R|]. specialize (G 1%nat ltac:(lia)).
  assert (E : mo_isMoving A (planned_alone A M (sideways A)) 1 = false) by (vm_compute; reflexivity). rewrite E in G. destruct G as [G1 G2].
  split; [rewrite G1; vm_compute; reflexivity|]. split; [rewrite G2; reflexivity|]. vm_compute. reflexivity.
Qed.

Lemma steps_wrong : let o := planned_alone A M (travMicro A 265) in let s := t_length (mo_traj o) in
  (exists p, positionFromDistance A M o (pt_zero A) s = Ok p /\ nthF A (pt_mm p) 0 = ndec (aF A) 265 3 /\ nth 0 (pt_steps p) 0%Z = 52%Z) /\
  forall c, nth 0 (c_pos c) 0%Z = 53%Z -> c_decide A M c 0 (mo_position A o 0 s) = Ok None.
Proof.
  cbv zeta. split.
  - set (o := planned_alone A M (travMicro A 265)).
    destruct (point_gather A M o (t_length (mo_traj o)) (pt_zero A) (fun _ => 52%Z) eq_refl eq_refl) as (p & R & _ & _ & G).
    { intros [|[|[|i]]] Hi; [intros _; vm_compute; reflexivity|intro E; vm_compute in E; discriminate..|lia]. }
    exists p. split; [exact R|]. specialize (G 0%nat ltac:(lia)).
    assert (E : mo_isMoving A o 0 = true) by (vm_compute; reflexivity). rewrite E in G. destruct G as [G1 G2].
    split; [rewrite G1; vm_compute; reflexivity|exact G2].
  - intros c E. unfold c_decide, needStepForward, needStepBackward. rewrite E. vm_compute. reflexivity.
Qed.
End Witness.

Lemma single_example X : let A := sf_arith X in let M := cnc3axis A in let o := planned_alone A M (linX A 10 10) in let s := nofZ (aF A) 5 in
  (forall i, (i < 3)%nat -> float32 (nthF A (m_stepsPerMm M) i) 200) /\ mo_isMoving A o 0 = true /\
  forall i, (i < 3)%nat -> mo_isMoving A o i = true -> float32 (mo_position A o i s) 5 /\ Rabs (5 * 200) <= 1000000.
Proof.
  cbv zeta. split; [|split; [vm_compute; reflexivity|]].
  - assert (E : float32 (nofZ (aF (sf_arith X)) 200) 200).
    { split; [vm_compute; reflexivity|]. assert (E : nofZ (aF (sf_arith X)) 200 = S754_finite false 13107200 (-16)) by (vm_compute; reflexivity).
      rewrite E. cbn [sf_val]. f_equal. rewrite <- bpow_val. change (bpow radix2 (-16)) with (/ 65536). lra. }
    intros [|[|[|i]]] Hi; [exact E..|lia].
  - intros [|[|[|i]]] Hi; [intros _|intro E; vm_compute in E; discriminate..|lia].
    split; [|rewrite Rabs_pos_eq; lra].
    assert (E : mo_position (sf_arith X) (planned_alone (sf_arith X) (cnc3axis (sf_arith X)) (linX (sf_arith X) 10 10)) 0 (nofZ (aF (sf_arith X)) 5) = S754_finite false 10485760 (-21)) by (vm_compute; reflexivity).
    rewrite E. split; [vm_compute; reflexivity|]. cbn [sf_val]. f_equal. rewrite <- bpow_val. change (bpow radix2 (-21)) with (/ 2097152). lra.
Qed.
