(** IEEE-754 operations of the model as rounded real operations (through Flocq). *)
Require Import List Arith NArith ZArith Bool Reals Lra Lia.
From Coq Require Import Floats.SpecFloat.
From Flocq Require Import Zaux Raux Defs Generic_fmt FLT Float_prop Round_NE Ulp Round_pred Relative BinarySingleNaN.
From Verif Require Import Num NumSF.
Open Scope R_scope.

Section E.
Variables prec emax : Z.
Context (Hprec : FLX.Prec_gt_0 prec) (Hmax : Prec_lt_emax prec emax).
Notation fexp := (SpecFloat.fexp prec emax).
Notation rnd := (round radix2 fexp ZnearestE).

Lemma rne_equiv s m l : round_nearest_even m l = choice_mode mode_NE s m l.
Proof. case l; [reflexivity|intro c]. case c; [|reflexivity..]. now simpl; unfold Round.cond_incr; case Z.even. Qed.
Lemma round_aux_equiv sx mx ex lx : SpecFloat.binary_round_aux prec emax sx mx ex lx = BinarySingleNaN.binary_round_aux prec emax mode_NE sx mx ex lx.
Proof.
  unfold SpecFloat.binary_round_aux, BinarySingleNaN.binary_round_aux. set (mrse' := shr_fexp _ _ _ _ _). case mrse'; intros mrs' e'; simpl. now rewrite (rne_equiv sx).
Qed.
Lemma round_equiv s m e : SpecFloat.binary_round prec emax s m e = BinarySingleNaN.binary_round prec emax mode_NE s m e.
Proof. unfold SpecFloat.binary_round, BinarySingleNaN.binary_round, shl_align_fexp. set (mez := shl_align _ _ _); case mez as [mz ez]. apply round_aux_equiv. Qed.
Lemma normalize_equiv m e szero : SpecFloat.binary_normalize prec emax m e szero = B2SF (BinarySingleNaN.binary_normalize prec emax Hprec Hmax mode_NE m e szero).
Proof. case m as [ | p | p]; [now simpl| |]; simpl; rewrite B2SF_SF2B; apply round_equiv. Qed.

(** [x] is a finite float with value [r]. *)
Definition fin (x : sf) (r : R) : Prop := exists b : binary_float prec emax, B2SF b = x /\ is_finite b = true /\ B2R b = r.
Definition small (r : R) : Prop := Rabs (rnd r) < bpow radix2 emax.

Lemma fin_add x y r s : fin x r -> fin y s -> small (r + s) -> fin (SFadd prec emax x y) (rnd (r + s)).
Proof.
  intros (a & <- & Fa & <-) (b & <- & Fb & <-) S.
  pose proof (Bplus_correct prec emax Hprec Hmax mode_NE a b Fa Fb) as C. cbn [round_mode] in C. rewrite Rlt_bool_true in C by exact S.
  destruct C as (C1 & C2 & _). exists (Bplus mode_NE a b). split; [|split; auto].
  clear. destruct a as [sx|sx| |sx mx ex Bx]; destruct b as [sy|sy| |sy my ey By]; try (cbn; trivial; case Bool.eqb; trivial; fail).
  cbn [Bplus SFadd B2SF]. symmetry. apply normalize_equiv.
Qed.
Lemma fin_sub x y r s : fin x r -> fin y s -> small (r - s) -> fin (SFsub prec emax x y) (rnd (r - s)).
Proof.
  intros (a & <- & Fa & <-) (b & <- & Fb & <-) S.
  pose proof (Bminus_correct prec emax Hprec Hmax mode_NE a b Fa Fb) as C. cbn [round_mode] in C. rewrite Rlt_bool_true in C by exact S.
  destruct C as (C1 & C2 & _). exists (Bminus mode_NE a b). split; [|split; auto].
  clear. destruct a as [sx|sx| |sx mx ex Bx]; destruct b as [sy|sy| |sy my ey By]; try (cbn; trivial; case Bool.eqb; trivial; fail).
  cbn [Bminus SFsub B2SF]. rewrite normalize_equiv. f_equal. f_equal. unfold Zminus. now rewrite <- cond_Zopp_negb.
Qed.
Lemma fin_mul x y r s : fin x r -> fin y s -> small (r * s) -> fin (SFmul prec emax x y) (rnd (r * s)).
Proof.
  intros (a & <- & Fa & <-) (b & <- & Fb & <-) S.
  pose proof (Bmult_correct prec emax Hprec Hmax mode_NE a b) as C. cbn [round_mode] in C. rewrite Rlt_bool_true in C by exact S.
  destruct C as (C1 & C2 & _). rewrite Fa, Fb in C2. exists (Bmult mode_NE a b). split; [|split; auto].
  clear. destruct a as [sx|sx| |sx mx ex Bx]; destruct b as [sy|sy| |sy my ey By]; try (cbn; trivial; fail).
  cbn [Bmult SFmul B2SF]. rewrite B2SF_SF2B. symmetry. apply round_aux_equiv.
Qed.
Lemma fin_div x y r s : fin x r -> fin y s -> s <> 0 -> small (r / s) -> fin (SFdiv prec emax x y) (rnd (r / s)).
Proof.
  intros (a & <- & Fa & <-) (b & <- & Fb & <-) NZ S.
  pose proof (Bdiv_correct prec emax Hprec Hmax mode_NE a b NZ) as C. cbn [round_mode] in C. rewrite Rlt_bool_true in C by exact S.
  destruct C as (C1 & C2 & _). rewrite Fa in C2. exists (Bdiv mode_NE a b). split; [|split; auto].
  clear - NZ. destruct a as [sx|sx| |sx mx ex Bx]; destruct b as [sy|sy| |sy my ey By]; try (cbn; trivial; fail).
  cbn [Bdiv SFdiv B2SF]. rewrite B2SF_SF2B. set (melz := SFdiv_core_binary _ _ _ _ _ _). case melz as [[mz ez] lz]. symmetry. apply round_aux_equiv.
Qed.
Lemma fin_sqrt x r : fin x r -> 0 <= r -> fin (SFsqrt prec emax x) (rnd (sqrt r)).
Proof.
  intros (a & <- & Fa & <-) P.
  destruct (Bsqrt_correct prec emax Hprec Hmax mode_NE a) as (C1 & C2 & _). cbn [round_mode] in C1.
  exists (Bsqrt mode_NE a). split; [|split].
  - clear - P. destruct a as [sx|sx| |sx mx ex Bx]; try (cbn; trivial; case sx; trivial; fail). destruct sx; [reflexivity|].
    cbn [Bsqrt SFsqrt B2SF]. rewrite B2SF_SF2B. set (melz := SFsqrt_core_binary _ _ _ _). case melz as [[mz ez] lz]. symmetry. apply round_aux_equiv.
  - rewrite C2. destruct a as [s|s| |s m e B]; try discriminate; [destruct s; reflexivity|]. destruct s; [|reflexivity].
    exfalso. cbn in P. assert (F2R (Float radix2 (Z.neg m) e) < 0) by (apply F2R_lt_0; reflexivity). lra.
  - exact C1.
Qed.
Lemma fin_opp x r : fin x r -> fin (SFopp x) (- r).
Proof.
  intros (a & <- & Fa & <-). exists (Bopp a). split; [destruct a; reflexivity|]. split; [rewrite is_finite_Bopp; auto|]. apply B2R_Bopp.
Qed.
Lemma fin_abs x r : fin x r -> fin (SFabs x) (Rabs r).
Proof.
  intros (a & <- & Fa & <-). exists (Babs a). split; [destruct a; reflexivity|]. split; [rewrite is_finite_Babs; auto|]. apply B2R_Babs.
Qed.
Lemma fin_ltb x y r s : fin x r -> fin y s -> SFltb x y = Rlt_bool r s.
Proof. intros (a & <- & Fa & <-) (b & <- & Fb & <-). exact (Bltb_correct prec emax a b Fa Fb). Qed.
Lemma fin_leb x y r s : fin x r -> fin y s -> SFleb x y = Rle_bool r s.
Proof. intros (a & <- & Fa & <-) (b & <- & Fb & <-). exact (Bleb_correct prec emax a b Fa Fb). Qed.
Lemma fin_eqb x y r s : fin x r -> fin y s -> SFeqb x y = Req_bool r s.
Proof. intros (a & <- & Fa & <-) (b & <- & Fb & <-). exact (Beqb_correct prec emax a b Fa Fb). Qed.
Lemma fin_format x r : fin x r -> generic_format radix2 fexp r.
Proof. intros (a & _ & _ & <-). apply generic_format_B2R. Qed.
Lemma fin_bound x r : fin x r -> Rabs r < bpow radix2 emax.
Proof. intros (a & _ & _ & <-). apply abs_B2R_lt_emax. Qed.
Lemma fin_zero s : fin (S754_zero s) 0.
Proof. exists (B754_zero s). auto. Qed.
Lemma fin_unique x r s : fin x r -> fin x s -> r = s.
Proof. intros (a & E1 & _ & <-) (b & E2 & _ & <-). rewrite <- E1 in E2. apply B2SF_inj in E2. now subst. Qed.

Lemma fin_normalize m e sz : small (F2R (Float radix2 m e)) -> fin (SpecFloat.binary_normalize prec emax m e sz) (rnd (F2R (Float radix2 m e))).
Proof.
  intro S. pose proof (binary_normalize_correct prec emax Hprec Hmax mode_NE m e sz) as C. cbv zeta in C. cbn [round_mode] in C. rewrite Rlt_bool_true in C by exact S.
  destruct C as (C1 & C2 & _). eexists. split; [symmetry; apply normalize_equiv|]. auto.
Qed.
Lemma F2R_0 m : F2R (Float radix2 m 0) = IZR m.
Proof. unfold F2R. cbn. lra. Qed.
Lemma fin_ofZ z : small (IZR z) -> fin (sf_ofZ prec emax z) (rnd (IZR z)).
Proof.
  intro S. unfold sf_ofZ. destruct z as [|p|p].
  - rewrite round_0; [apply fin_zero|apply valid_rnd_N].
  - rewrite <- F2R_0 in *. apply fin_normalize; auto.
  - rewrite <- F2R_0 in *. apply fin_normalize; auto.
Qed.

(** Values. *)
Lemma fin_value x r : fin x r -> match x with S754_zero _ => r = 0 | S754_finite s m e => r = IZR (cond_Zopp s (Zpos m)) * bpow radix2 e | _ => False end.
Proof. intros (a & <- & Fa & <-). destruct a; try discriminate; reflexivity. Qed.
End E.
