(** binary32: results of operations with a bound on their error. *)
Require Import List Arith NArith ZArith Bool Reals Lra Lia.
From Coq Require Import Floats.SpecFloat.
From Flocq Require Import Zaux Raux Defs Generic_fmt FLT Float_prop Round_NE Ulp Round_pred Relative BinarySingleNaN.
From Verif Require Import Base Num NumSF MotionModel CtrlModel FloatSpec FloatProofs FloatClockProofs.
Open Scope R_scope.

Lemma Rabs_def3 x a : Rabs x <= a -> - a <= x <= a.
Proof. intro H. unfold Rabs in H. destruct (Rcase_abs x); lra. Qed.
Lemma Rabs_sum x y a b : Rabs x <= a -> Rabs y <= b -> Rabs (x + y) <= a + b.
Proof. intros. eapply Rle_trans; [apply Rabs_triang|lra]. Qed.

Definition lowest : R := / 295147905179352825856.             (* 2^-68 *)
Definition highest : R := 1267650600228229401496703205376.     (* 2^100 *)
Definition scl (B : R) : Prop := lowest <= B <= highest.
Lemma scl_pos B : scl B -> 0 < B.
Proof. unfold scl, lowest. lra. Qed.

Lemma small_huge x : Rabs x <= 2 * highest -> small 24 128 x.
Proof.
  intro H. unfold small. pose proof (rnd_err x) as E.
  assert (Rabs (rnd x) <= Rabs x + Rabs (rnd x - x)). { replace (rnd x) with (x + (rnd x - x)) at 1 by ring. apply Rabs_triang. }
  change (bpow radix2 128) with 340282366920938463463374607431768211456. unfold eps, eta, highest in *. lra.
Qed.
Lemma eta_le B : scl B -> eta <= / 256 * (eps * B).
Proof. unfold scl, eta, eps, lowest. lra. Qed.

(** [x] is a finite float within [k] times eps [B] of [r]. *)
Definition fap (B k : R) (x : sf) (r : R) : Prop := exists y, fin32 x y /\ Rabs (y - r) <= k * (eps * B).

Lemma fap_exact B x r : 0 <= B -> fin32 x r -> fap B 0 x r.
Proof. intros P H. exists r. split; auto. unfold Rminus. rewrite Rplus_opp_r, Rabs_R0. lra. Qed.
Lemma fap_weak B k B' k' x r : fap B k x r -> k * B <= k' * B' -> fap B' k' x r.
Proof.
  intros (y & F & E) H. exists y. split; auto. eapply Rle_trans; [exact E|].
  replace (k * (eps * B)) with (eps * (k * B)) by ring. replace (k' * (eps * B')) with (eps * (k' * B')) by ring.
  apply Rmult_le_compat_l; [unfold eps; lra|exact H].
Qed.
Lemma fap_moved B k x r r' c : fap B k x r -> Rabs (r - r') <= c * (eps * B) -> fap B (k + c) x r'.
Proof.
  intros (y & F & E) H. exists y. split; auto. replace (y - r') with ((y - r) + (r - r')) by ring.
  rewrite Rmult_plus_distr_r. now apply Rabs_sum.
Qed.
Lemma fap_eq B k x r r' : fap B k x r -> r = r' -> fap B k x r'.
Proof. now intros H <-. Qed.

Section Ops.
Variable X : sf_funs.
Notation K := (aF (sf_arith X)).

(** The rounding itself. *)
Lemma rnd_step B u r e : scl B -> Rabs r <= B -> Rabs (u - r) <= e -> e <= B / 1024 ->
  Rabs (rnd u - r) <= e + 9/8 * (eps * B) /\ Rabs u <= 2 * highest.
Proof.
  intros S R U E. pose proof (rnd_err u) as RE. pose proof (eta_le B S) as HE. pose proof (scl_pos B S) as P.
  assert (AU : Rabs u <= B + B / 1024).
  { replace u with (r + (u - r)) by ring. eapply Rle_trans; [apply Rabs_triang|lra]. }
  split.
  - replace (rnd u - r) with ((u - r) + (rnd u - u)) by ring. apply Rabs_sum; [exact U|].
    eapply Rle_trans; [exact RE|]. assert (eps * Rabs u <= eps * (B + B / 1024)) by (apply Rmult_le_compat_l; [unfold eps; lra|lra]).
    unfold eps in *. lra.
  - unfold scl in S. lra.
Qed.

Lemma fap_add B k l x y r s : fap B k x r -> fap B l y s -> Rabs (r + s) <= B -> scl B -> k + l <= 1000 ->
  fap B (k + l + 9/8) (nadd K x y) (r + s).
Proof.
  intros (x' & Fx & Ex) (y' & Fy & Ey) R S L. pose proof (scl_pos B S) as P.
  destruct (rnd_step B (x' + y') (r + s) (k * (eps * B) + l * (eps * B)) S R) as (A1 & A2).
  - replace (x' + y' - (r + s)) with ((x' - r) + (y' - s)) by ring. now apply Rabs_sum.
  - rewrite <- Rmult_plus_distr_r. assert ((k + l) * (eps * B) <= 1000 * (eps * B)) by (apply Rmult_le_compat_r; [unfold eps; lra|exact L]).
    unfold eps in *. lra.
  - exists (rnd (x' + y')). split; [apply (fin_add _ _ prec24 max24); auto; now apply small_huge|]. lra.
Qed.
Lemma fap_sub B k l x y r s : fap B k x r -> fap B l y s -> Rabs (r - s) <= B -> scl B -> k + l <= 1000 ->
  fap B (k + l + 9/8) (nsub K x y) (r - s).
Proof.
  intros (x' & Fx & Ex) (y' & Fy & Ey) R S L. pose proof (scl_pos B S) as P.
  destruct (rnd_step B (x' - y') (r - s) (k * (eps * B) + l * (eps * B)) S R) as (A1 & A2).
  - replace (x' - y' - (r - s)) with ((x' - r) + - (y' - s)) by ring. apply Rabs_sum; auto. now rewrite Rabs_Ropp.
  - rewrite <- Rmult_plus_distr_r. assert ((k + l) * (eps * B) <= 1000 * (eps * B)) by (apply Rmult_le_compat_r; [unfold eps; lra|exact L]).
    unfold eps in *. lra.
  - exists (rnd (x' - y')). split; [apply (fin_sub _ _ prec24 max24); auto; now apply small_huge|]. lra.
Qed.
Lemma fap_mul B C k l x y r s : fap B k x r -> fap C l y s -> Rabs r <= B -> Rabs s <= C -> 0 < B -> 0 < C -> scl (B * C) ->
  0 <= k <= 500 -> 0 <= l <= 500 -> fap (B * C) (k + l + 10/8) (nmul K x y) (r * s).
Proof.
  intros (x' & Fx & Ex) (y' & Fy & Ey) R1 R2 PB PC S LK LL. pose proof (scl_pos _ S) as P.
  assert (E1 : Rabs (x' * y' - r * s) <= (k + l + 1/8) * (eps * (B * C))).
  { replace (x' * y' - r * s) with ((x' - r) * s + (r * (y' - s) + (x' - r) * (y' - s))) by ring.
    assert (Q1 : Rabs ((x' - r) * s) <= k * (eps * B) * C).
    { rewrite Rabs_mult. apply Rmult_le_compat; auto using Rabs_pos. }
    assert (Q2 : Rabs (r * (y' - s)) <= B * (l * (eps * C))).
    { rewrite Rabs_mult. apply Rmult_le_compat; auto using Rabs_pos. }
    assert (Q3 : Rabs ((x' - r) * (y' - s)) <= k * (eps * B) * (l * (eps * C))).
    { rewrite Rabs_mult. apply Rmult_le_compat; auto using Rabs_pos. }
    assert (Q4 : k * (eps * B) * (l * (eps * C)) <= 1/8 * (eps * (B * C))).
    { replace (k * (eps * B) * (l * (eps * C))) with ((k * l * eps) * (eps * (B * C))) by ring. apply Rmult_le_compat_r; [unfold eps; lra|].
      assert (k * l <= 500 * 500) by (apply Rmult_le_compat; lra). unfold eps. lra. }
    pose proof (Rabs_sum _ _ _ _ Q2 Q3) as Q5. pose proof (Rabs_sum _ _ _ _ Q1 Q5). lra. }
  destruct (rnd_step (B * C) (x' * y') (r * s) ((k + l + 1/8) * (eps * (B * C))) S) as (A1 & A2).
  - rewrite Rabs_mult. apply Rmult_le_compat; auto using Rabs_pos.
  - exact E1.
  - assert ((k + l + 1/8) * (eps * (B * C)) <= 1001 * (eps * (B * C))) by (apply Rmult_le_compat_r; [unfold eps; lra|lra]). unfold eps in *. lra.
  - exists (rnd (x' * y')). split; [apply (fin_mul _ _ prec24 max24); auto; now apply small_huge|]. lra.
Qed.
(** Division by a float. *)
Lemma fap_div B k x y r s : fap B k x r -> fin32 y s -> s <> 0 -> Rabs r <= B -> scl (B / Rabs s) ->
  0 <= k <= 500 -> fap (B / Rabs s) (k + 9/8) (ndiv K x y) (r / s).
Proof.
  intros (x' & Fx & Ex) Fy NZ R S LK. pose proof (scl_pos _ S) as P.
  pose proof (Rabs_pos_lt s NZ) as PS.
  assert (E1 : Rabs (x' / s - r / s) <= k * (eps * (B / Rabs s))).
  { replace (x' / s - r / s) with ((x' - r) * / s) by (field; auto). rewrite Rabs_mult, Rabs_inv.
    replace (k * (eps * (B / Rabs s))) with (k * (eps * B) * / Rabs s) by (field; lra).
    apply Rmult_le_compat_r; [apply Rlt_le, Rinv_0_lt_compat; lra|exact Ex]. }
  destruct (rnd_step (B / Rabs s) (x' / s) (r / s) (k * (eps * (B / Rabs s))) S) as (A1 & A2).
  - unfold Rdiv at 1. rewrite Rabs_mult, Rabs_inv. apply Rmult_le_compat_r; [apply Rlt_le, Rinv_0_lt_compat; lra|exact R].
  - exact E1.
  - assert (k * (eps * (B / Rabs s)) <= 500 * (eps * (B / Rabs s))) by (apply Rmult_le_compat_r; [unfold eps in *; lra|lra]). unfold eps in *. lra.
  - exists (rnd (x' / s)). split; [apply (fin_div _ _ prec24 max24); auto; now apply small_huge|]. lra.
Qed.
Lemma sqrt_near x r e : 0 <= r -> 0 <= x -> Rabs (x - r) <= e * r -> Rabs (sqrt x - sqrt r) <= e * sqrt r.
Proof.
  intros P PX H. destruct (Req_dec r 0) as [->|NZ].
  - rewrite Rmult_0_r in H. assert (x = 0) as ->. { apply Rabs_def3 in H. lra. } rewrite sqrt_0. unfold Rminus. rewrite Rplus_opp_r, Rabs_R0. lra.
  - assert (Q : 0 < sqrt r) by (apply sqrt_lt_R0; lra). pose proof (sqrt_pos x).
    assert (D : (sqrt x - sqrt r) * (sqrt x + sqrt r) = x - r).
    { pose proof (sqrt_sqrt x PX). pose proof (sqrt_sqrt r P). lra. }
    rewrite <- D, Rabs_mult, (Rabs_pos_eq (sqrt x + sqrt r)) in H by lra.
    pose proof (sqrt_sqrt r P) as SS. assert (e * r = e * sqrt r * sqrt r) by (rewrite <- SS at 1; ring).
    assert (M : Rabs (sqrt x - sqrt r) * sqrt r <= e * sqrt r * sqrt r).
    { apply Rle_trans with (Rabs (sqrt x - sqrt r) * (sqrt x + sqrt r)); [|lra]. apply Rmult_le_compat_l; [apply Rabs_pos|lra]. }
    apply Rmult_le_reg_r in M; auto.
Qed.
Lemma fap_sqrt k x r : fap r k x r -> scl r -> scl (sqrt r) -> 0 <= k <= 500 -> fap (sqrt r) (k + 9/8) (nsqrt K x) (sqrt r).
Proof.
  intros (x' & Fx & Ex) S SS LK. pose proof (scl_pos _ S) as P. pose proof (scl_pos _ SS) as PS.
  assert (PX : 0 <= x').
  { apply Rabs_def3 in Ex. assert (k * (eps * r) <= 500 * (eps * r)) by (apply Rmult_le_compat_r; [unfold eps; lra|lra]). unfold eps in *. lra. }
  assert (E1 : Rabs (sqrt x' - sqrt r) <= k * (eps * sqrt r)).
  { replace (k * (eps * sqrt r)) with (k * eps * sqrt r) by ring. apply sqrt_near; auto; [lra|]. replace (k * eps * r) with (k * (eps * r)) by ring. exact Ex. }
  destruct (rnd_step (sqrt r) (sqrt x') (sqrt r) (k * (eps * sqrt r)) SS) as (A1 & A2).
  - rewrite Rabs_pos_eq; lra.
  - exact E1.
  - assert (k * (eps * sqrt r) <= 500 * (eps * sqrt r)) by (apply Rmult_le_compat_r; [unfold eps; lra|lra]). unfold eps in *. lra.
  - exists (rnd (sqrt x')). split; [apply (fin_sqrt _ _ prec24 max24); auto|]. lra.
Qed.
Lemma fap_opp B k x r : fap B k x r -> fap B k (nopp K x) (- r).
Proof.
  intros (y & F & E). exists (- y). split; [apply fin_opp; auto|].
  replace (- y - - r) with (- (y - r)) by ring. now rewrite Rabs_Ropp.
Qed.
Lemma fin_half : fin32 (ndec K 5 1) (1/2).
Proof. apply fin_float32. split; [reflexivity|]. vm_compute ndec. unfold sf_val. f_equal. change (powerRZ 2 (-24)) with (/ (2^24)%R). lra. Qed.
Lemma fin_lit z : (Z.abs z <= 16777216)%Z -> fin32 (nofZ K z) (IZR z).
Proof.
  intro H. rewrite <- (rnd_int z H). apply (fin_ofZ _ _ prec24 max24). apply small_huge.
  rewrite <- abs_IZR. apply Rle_trans with (IZR 16777216); [apply IZR_le; auto|unfold highest; lra].
Qed.
Lemma fap_sixth : fap (1/6) (9/8) (ndiv K (nofZ K 1) (nofZ K 6)) (1/6).
Proof.
  pose proof (fap_div 1 0 (nofZ K 1) (nofZ K 6) 1 6) as H. rewrite (Rabs_pos_eq 6) in H by lra.
  eapply fap_weak; [apply H|lra]; try lra.
  - apply fap_exact; [lra|]. apply (fin_lit 1). lia.
  - apply (fin_lit 6). lia.
  - rewrite Rabs_pos_eq; lra.
  - unfold scl, lowest, highest. lra.
Qed.
Lemma K_ltb x y r s : fin32 x r -> fin32 y s -> nltb K x y = Rlt_bool r s.
Proof. exact (fin_ltb 24 128 x y r s). Qed.
Lemma K_leb x y r s : fin32 x r -> fin32 y s -> nleb K x y = Rle_bool r s.
Proof. exact (fin_leb 24 128 x y r s). Qed.
Lemma K_eqb x y r s : fin32 x r -> fin32 y s -> neqb K x y = Req_bool r s.
Proof. exact (fin_eqb 24 128 x y r s). Qed.
(** Exact cases. *)
Lemma add_0_l x r : fin32 x r -> fin32 (nadd K (nofZ K 0) x) r.
Proof.
  intro F. assert (E : rnd (0 + r) = r) by (rewrite Rplus_0_l; apply rnd_id; eapply fin_format; eauto).
  rewrite <- E. apply (fin_add _ _ prec24 max24); auto; [apply (fin_lit 0); lia|]. unfold small. rewrite E. eapply fin_bound; eauto.
Qed.
Lemma add_0_r x r : fin32 x r -> fin32 (nadd K x (nofZ K 0)) r.
Proof.
  intro F. assert (E : rnd (r + 0) = r) by (rewrite Rplus_0_r; apply rnd_id; eapply fin_format; eauto).
  rewrite <- E. apply (fin_add _ _ prec24 max24); auto; [apply (fin_lit 0); lia|]. unfold small. rewrite E. eapply fin_bound; eauto.
Qed.
Lemma sub_0_r x r : fin32 x r -> fin32 (nsub K x (nofZ K 0)) r.
Proof.
  intro F. assert (E : rnd (r - 0) = r) by (rewrite Rminus_0_r; apply rnd_id; eapply fin_format; eauto).
  rewrite <- E. apply (fin_sub _ _ prec24 max24); auto; [apply (fin_lit 0); lia|]. unfold small. rewrite E. eapply fin_bound; eauto.
Qed.
Lemma fap_add_0 B k x r : fap B k x r -> fap B k (nadd K (nofZ K 0) x) r.
Proof. intros (y & F & E). exists y. split; auto. now apply add_0_l. Qed.
End Ops.
