(** binary32: rounding errors, and the sample clock. *)
Require Import List Arith NArith ZArith Bool Reals Lra Lia.
From Coq Require Import Floats.SpecFloat.
From Flocq Require Import Zaux Raux Defs Generic_fmt FLT Float_prop Round_NE Ulp Round_pred Relative BinarySingleNaN.
From Verif Require Import Base Num NumSF MotionModel CtrlModel FloatSpec FloatProofs.
Open Scope R_scope.

Lemma prec24 : FLX.Prec_gt_0 24. Proof. reflexivity. Qed.
Lemma max24 : Prec_lt_emax 24 128. Proof. reflexivity. Qed.
Notation rnd := (round radix2 (SpecFloat.fexp 24 128) ZnearestE).
Notation fin32 := (fin 24 128).
Lemma valid_exp24 : Valid_exp (SpecFloat.fexp 24 128). Proof. apply FLT_exp_valid. reflexivity. Qed.
Global Existing Instance valid_exp24.
Global Existing Instance prec24.
Lemma fexp_flt : forall x, SpecFloat.fexp 24 128 x = FLT_exp (-149) 24 x. Proof. reflexivity. Qed.

Lemma bpow_val e : bpow radix2 e = powerRZ 2 e.
Proof. rewrite bpow_powerRZ. reflexivity. Qed.
Lemma fin_float32 x r : fin32 x r <-> float32 x r.
Proof.
  split.
  - intros (b & <- & F & <-). split; [apply valid_binary_B2SF|]. destruct b as [s|s| |s m e B]; try discriminate; [reflexivity|].
    unfold B2SF, sf_val, B2R, F2R. cbn [Fnum Fexp]. rewrite bpow_val. destruct s; cbn [SpecFloat.cond_Zopp cond_Zopp]; do 2 f_equal; [|lra].
    change (Z.neg m) with (- Z.pos m)%Z. rewrite opp_IZR. lra.
  - intros (V & H). exists (SF2B x V). split; [apply B2SF_SF2B|]. split.
    + rewrite is_finite_SF2B. destruct x; try discriminate; reflexivity.
    + rewrite B2R_SF2B. destruct x as [s|s| |s m e]; try discriminate; cbn [sf_val] in H; injection H as <-; [reflexivity|].
      unfold SF2R, F2R. cbn [Fnum Fexp]. rewrite bpow_val. destruct s; cbn [cond_Zopp]; [|lra]. change (Z.neg m) with (- Z.pos m)%Z. rewrite opp_IZR. lra.
Qed.

Definition eps : R := / 16777216.
Definition eta : R := / 1267650600228229401496703205376.   (* 2^-100, generous *)
Lemma b24 : bpow radix2 (-24 + 1) = 2 * eps. Proof. unfold eps. cbn. lra. Qed.

(** Rounding error. *)
Lemma rnd_err x : Rabs (rnd x - x) <= eps * Rabs x + eta.
Proof.
  destruct (error_N_FLT radix2 (-149) 24 prec24 (fun z => negb (Z.even z)) x) as (e & h & H1 & H2 & _ & H4).
  change (round radix2 (FLT_exp (-149) 24) (Znearest (fun z : Z => negb (Z.even z))) x) with (rnd x) in H4.
  rewrite H4. replace (x * (1 + e) + h - x) with (x * e + h) by ring.
  eapply Rle_trans; [apply Rabs_triang|]. rewrite Rabs_mult.
  assert (Rabs e <= eps). { eapply Rle_trans; [exact H1|]. unfold eps. change (bpow radix2 (- (24) + 1)) with (/ 8388608). lra. }
  assert (Rabs h <= eta). { eapply Rle_trans; [exact H2|]. unfold eta. change (bpow radix2 (-149)) with (/ 713623846352979940529142984724747568191373312). lra. }
  pose proof (Rabs_pos x). apply Rplus_le_compat; [|auto]. rewrite Rmult_comm. apply Rmult_le_compat_r; auto.
Qed.
(** For normal numbers. *)
Lemma rnd_err_n x : / 1048576 <= Rabs x -> Rabs (rnd x - x) <= eps * Rabs x.
Proof.
  intro H. pose proof (relative_error_N_FLT radix2 (-149) 24 prec24 (fun z => negb (Z.even z)) x) as E.
  change (round radix2 (FLT_exp (-149) 24) (Znearest (fun z : Z => negb (Z.even z))) x) with (rnd x) in E.
  replace (/ 2 * bpow radix2 (- (24) + 1)) with eps in E. 2:{ unfold eps. change (bpow radix2 (- (24) + 1)) with (/ 8388608). lra. }
  apply E. eapply Rle_trans; [|exact H]. change (/ 1048576) with (bpow radix2 (-20)). apply bpow_le. lia.
Qed.
Lemma rnd_mono x y : x <= y -> rnd x <= rnd y.
Proof. apply round_le. apply valid_exp24. apply valid_rnd_N. Qed.
Lemma rnd_id x : generic_format radix2 (SpecFloat.fexp 24 128) x -> rnd x = x.
Proof. apply round_generic. apply valid_rnd_N. Qed.
Lemma rnd_0 : rnd 0 = 0.
Proof. apply round_0. apply valid_rnd_N. Qed.
Lemma int_format z : (Z.abs z <= 16777216)%Z -> generic_format radix2 (SpecFloat.fexp 24 128) (IZR z).
Proof.
  intro H. destruct (Z.eq_dec (Z.abs z) 16777216) as [E|E].
  - assert (G : generic_format radix2 (SpecFloat.fexp 24 128) (IZR 16777216)).
    { change (IZR 16777216) with (bpow radix2 24). apply generic_format_bpow. unfold SpecFloat.fexp, SpecFloat.emin. lia. }
    destruct (Z.abs_eq_or_opp z) as [E1|E1]; [rewrite <- E1, E; exact G|]. replace z with (- (16777216))%Z by lia. rewrite opp_IZR. apply generic_format_opp. exact G.
  - replace (IZR z) with (F2R (Float radix2 z 0)) by apply F2R_0. apply (generic_format_FLT radix2 (-149) 24). exists (Float radix2 z 0); [reflexivity| |cbn; lia].
    cbn [Fnum]. change (radix2 ^ 24)%Z with 16777216%Z. lia.
Qed.
Lemma rnd_int z : (Z.abs z <= 16777216)%Z -> rnd (IZR z) = IZR z.
Proof. intro. apply rnd_id. apply int_format. auto. Qed.

Lemma small_le x : Rabs x <= 1000000000000 -> small 24 128 x.
Proof.
  intro H. unfold small. pose proof (rnd_err x) as E.
  assert (Rabs (rnd x) <= Rabs x + Rabs (rnd x - x)). { replace (rnd x) with (x + (rnd x - x)) at 1 by ring. apply Rabs_triang. }
  change (bpow radix2 128) with 340282366920938463463374607431768211456. unfold eps, eta in E. lra.
Qed.

(** *** The sample clock. *)
Section Clock.
Variable X : sf_funs.
Notation A := (sf_arith X).

Lemma ticked_form D F (B : arith D F) (s : stime F) w o n : fresh s w o -> (0 < n < 2 ^ 32)%N ->
  ticked B n s = mkST (nadd (aF B) (nmul (aF B) (nofZ (aF B) (Z.of_N n)) w) o) o n w.
Proof.
  intros (I & W & O & T). unfold ticked. revert n. induction n as [|n IH] using N.peano_ind; intro L; [lia|].
  rewrite N.iter_succ. destruct (N.eq_dec n 0) as [->|NZ].
  - cbn [N.iter]. unfold st_next. rewrite I, W, O. reflexivity.
  - rewrite IH by lia. unfold st_next. cbn [st_index st_width st_offset]. unfold add32, w32. rewrite !N.mod_small by (unfold two32; lia).
    replace (n + 1)%N with (N.succ n) by lia. reflexivity.
Qed.

Variables (w o : sf) (W O : R).
Hypothesis FW : float32 w W.
Hypothesis FO : float32 o O.
Hypothesis RW : / 1048576 <= W <= 1.
Hypothesis RO : 0 <= O <= 1.

Notation idx n := (IZR (Z.of_N n)).
Definition reads (n : N) : R := rnd (rnd (rnd (idx n) * W) + O).

Lemma idx_bound n : (n < 2 ^ 32)%N -> 0 <= idx n <= 4294967296.
Proof. intro. split; [apply (IZR_le 0)|apply (IZR_le _ 4294967296)]; lia. Qed.
Lemma idx_rnd n : (n < 2 ^ 32)%N -> Rabs (rnd (idx n) - idx n) <= eps * idx n /\ 0 <= rnd (idx n) <= 8589934592.
Proof.
  intro L. pose proof (idx_bound n L). 
  assert (Rabs (rnd (idx n) - idx n) <= eps * idx n).
  { destruct (N.eq_dec n 0) as [->|NZ]. { change (idx 0) with 0. rewrite rnd_0, Rminus_0_r, Rabs_R0. lra. }
    assert (1 <= idx n) by (apply (IZR_le 1); lia). rewrite <- (Rabs_pos_eq (idx n)) at 3 by lra. apply rnd_err_n. rewrite Rabs_pos_eq; lra. }
  split; auto. apply Rabs_le_inv in H0. unfold eps in H0. lra.
Qed.
Lemma prod_rnd n : (n < 2 ^ 32)%N -> Rabs (rnd (rnd (idx n) * W) - rnd (idx n) * W) <= eps * (rnd (idx n) * W) /\ 0 <= rnd (idx n) * W <= 8589934592.
Proof.
  intro L. destruct (idx_rnd n L) as (E & B). pose proof (idx_bound n L).
  assert (0 <= rnd (idx n) * W <= 8589934592) as B2. { split; [apply Rmult_le_pos; lra|]. apply Rle_trans with (8589934592 * 1); [|lra]. apply Rmult_le_compat; lra. }
  split; auto. destruct (N.eq_dec n 0) as [->|NZ]. { change (idx 0) with 0. rewrite !rnd_0, !Rmult_0_l, rnd_0, Rminus_0_r, Rabs_R0. lra. }
  assert (1 <= rnd (idx n)). { rewrite <- (rnd_int 1) by lia. apply rnd_mono. apply (IZR_le 1). lia. }
  rewrite <- (Rabs_pos_eq (rnd (idx n) * W)) at 3 by lra. apply rnd_err_n. rewrite Rabs_pos_eq by lra.
  apply Rle_trans with (1 * W); [lra|]. apply Rmult_le_compat_r; lra.
Qed.
Lemma reads_rnd n : (n < 2 ^ 32)%N -> let p := rnd (rnd (idx n) * W) + O in Rabs (reads n - p) <= eps * p /\ 0 <= p <= 17179869184.
Proof.
  intros L p. destruct (prod_rnd n L) as (E & B). assert (EE := E). apply Rabs_le_inv in E.
  assert (0 <= rnd (rnd (idx n) * W)) as P0. { rewrite <- rnd_0. apply rnd_mono. lra. }
  assert (0 <= p <= 17179869184) as B2. { unfold p. unfold eps in E. lra. }
  split; auto. unfold reads. fold p. destruct (N.eq_dec n 0) as [->|NZ].
  - assert (p = O) as ->. { unfold p. change (idx 0) with 0. rewrite !rnd_0, !Rmult_0_l, rnd_0. lra. }
    rewrite rnd_id. { unfold Rminus. rewrite Rplus_opp_r, Rabs_R0. apply Rmult_le_pos; [unfold eps|]; lra. }
    apply (fin_format 24 128 o). apply fin_float32; auto.
  - rewrite <- (Rabs_pos_eq p) at 3 by lra. apply rnd_err_n. rewrite Rabs_pos_eq by lra.
    assert (1 <= rnd (idx n)). { rewrite <- (rnd_int 1) by lia. apply rnd_mono. apply (IZR_le 1). lia. }
    assert (W <= rnd (rnd (idx n) * W)).
    { rewrite <- (rnd_id W) at 1. apply rnd_mono. apply Rle_trans with (1 * W); [lra|]. apply Rmult_le_compat_r; lra. apply (fin_format 24 128 w). apply fin_float32; auto. }
    unfold p. lra.
Qed.

Lemma clock_reads s n : fresh s w o -> (n < 2 ^ 32)%N -> float32 (st_time (ticked A n s)) (reads n).
Proof.
  intros FR L. destruct (N.eq_dec n 0) as [->|NZ].
  - unfold ticked. cbn [N.iter]. destruct FR as (_ & _ & _ & ->). unfold reads. change (idx 0) with 0. rewrite !rnd_0, !Rmult_0_l, rnd_0, Rplus_0_l, rnd_id; auto.
    apply (fin_format 24 128 o). apply fin_float32; auto.
  - rewrite (ticked_form _ _ A s w o n FR) by lia. cbn [st_time]. apply fin_float32. cbn [aF sf_arith sf_num nadd nmul nofZ].
    pose proof (idx_bound n L). destruct (idx_rnd n L) as (_ & B1). destruct (prod_rnd n L) as (_ & B2). destruct (reads_rnd n L) as (_ & B3).
    apply (fin_add _ _ prec24 max24); [|apply fin_float32; auto|].
    + apply (fin_mul _ _ prec24 max24); [|apply fin_float32; auto|].
      * apply (fin_ofZ _ _ prec24 max24). apply small_le. rewrite Rabs_pos_eq; lra.
      * apply small_le. rewrite Rabs_pos_eq; lra.
    + apply small_le. rewrite Rabs_pos_eq; lra.
Qed.

Lemma reads_near n : (n < 2 ^ 32)%N -> Rabs (reads n - (O + idx n * W)) <= / 4194304 * (O + idx n * W).
Proof.
  intro L. destruct (reads_rnd n L) as (E3 & B3). destruct (prod_rnd n L) as (E2 & B2). destruct (idx_rnd n L) as (E1 & B1). pose proof (idx_bound n L) as B0.
  set (i := idx n) in *. set (a := rnd i) in *. set (b := rnd (a * W)) in *.
  apply Rabs_le_inv in E1. apply Rabs_le_inv in E2. apply Rabs_le_inv in E3.
  assert (0 <= i * W) by (apply Rmult_le_pos; lra).
  assert ((1 - eps) * (i * W) <= a * W <= (1 + eps) * (i * W)).
  { rewrite <- !Rmult_assoc. split; apply Rmult_le_compat_r; lra. }
  apply Rabs_le. unfold eps in *. lra.
Qed.
Lemma reads_mono n : reads n <= reads (n + 1).
Proof.
  unfold reads. apply rnd_mono. apply Rplus_le_compat_r. apply rnd_mono. apply Rmult_le_compat_r; [lra|]. apply rnd_mono. apply IZR_le. lia.
Qed.
(** Between consecutive readings. *)
Lemma reads_gap n : (n + 1 < 2 ^ 32)%N -> reads (n + 1) - reads n <= (1 + / 2000000) * W + / 2000000 * reads n.
Proof.
  intro L. pose proof (reads_near n ltac:(lia)) as E0. pose proof (reads_near _ L) as E1. rewrite N2Z.inj_add, plus_IZR in E1. cbn [Z.of_N] in E1.
  pose proof (idx_bound n ltac:(lia)). assert (0 <= idx n * W) by (apply Rmult_le_pos; lra).
  rewrite Rmult_plus_distr_r, Rmult_1_l in E1. set (x := idx n * W) in *. apply Rabs_le_inv in E0. apply Rabs_le_inv in E1. lra.
Qed.
Lemma reads_step n : O <= W -> (n < 2000000)%N -> Rabs (reads (n + 1) - reads n - W) <= / 2 * W.
Proof.
  intros OW L. assert (L1 : (n + 1 < 2 ^ 32)%N) by lia. assert (L0 : (n < 2 ^ 32)%N) by lia.
  destruct (reads_rnd n L0) as (E3 & B3). destruct (prod_rnd n L0) as (E2 & B2).
  destruct (reads_rnd _ L1) as (F3 & C3). destruct (prod_rnd _ L1) as (F2 & C2).
  assert (I0 : rnd (idx n) = idx n) by (apply rnd_int; lia).
  assert (I1 : rnd (idx (n + 1)) = idx n + 1). { rewrite rnd_int by lia. rewrite N2Z.inj_add, plus_IZR. reflexivity. }
  rewrite I0 in *. rewrite I1 in *. cbv zeta in *.
  assert (0 <= idx n <= 2000000) as BI. { split; [apply (IZR_le 0)|apply (IZR_le _ 2000000)]; lia. }
  assert (0 <= idx n * W <= 2000000 * W) as BW. { split; [apply Rmult_le_pos; lra|apply Rmult_le_compat_r; lra]. }
  rewrite Rmult_plus_distr_r, Rmult_1_l in *.
  set (x := idx n * W) in *. set (u := rnd x) in *. set (v := rnd (x + W)) in *.
  apply Rabs_le_inv in E2. apply Rabs_le_inv in E3. apply Rabs_le_inv in F2. apply Rabs_le_inv in F3.
  apply Rabs_le. unfold eps in *. lra.
Qed.
End Clock.

(** C66 *)
Lemma clock_near X s w o W O n : float32 w W -> float32 o O -> / 1048576 <= W <= 1 -> 0 <= O <= 1 -> fresh s w o -> (n < 2 ^ 32)%N ->
  exists t, float32 (st_time (ticked (sf_arith X) n s)) t /\ Rabs (t - (O + IZR (Z.of_N n) * W)) <= / 4194304 * (O + IZR (Z.of_N n) * W).
Proof. intros FW FO RW RO FR L. exists (reads W O n). split; [eapply clock_reads; eauto; try lra|eapply reads_near; eauto]. Qed.
Lemma clock_mono X s w o W O n : float32 w W -> float32 o O -> / 1048576 <= W <= 1 -> 0 <= O <= 1 -> fresh s w o -> (n + 1 < 2 ^ 32)%N ->
  exists t t', float32 (st_time (ticked (sf_arith X) n s)) t /\ float32 (st_time (ticked (sf_arith X) (n + 1) s)) t' /\ t <= t'.
Proof. intros FW FO RW RO FR L. exists (reads W O n), (reads W O (n + 1)). split; [eapply clock_reads; eauto; try lra; try lia|]. split; [eapply clock_reads; eauto; try lra|eapply reads_mono; eauto]. Qed.
Lemma clock_step X s w o W O n : float32 w W -> float32 o O -> / 1048576 <= W <= 1 -> 0 <= O <= W -> fresh s w o -> (n < 2000000)%N ->
  exists t t', float32 (st_time (ticked (sf_arith X) n s)) t /\ float32 (st_time (ticked (sf_arith X) (n + 1) s)) t' /\ Rabs (t' - t - W) <= / 2 * W.
Proof. intros FW FO RW RO FR L. exists (reads W O n), (reads W O (n + 1)). split; [eapply clock_reads; eauto; try lra; try lia|]. split; [eapply clock_reads; eauto; try lra; try lia|eapply reads_step; eauto; lra]. Qed.
