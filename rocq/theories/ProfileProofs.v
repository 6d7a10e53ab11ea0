(** Acceleration/deceleration profiles over the reals: C27, C29. *)
Require Import Reals ZArith NArith Bool Lra Lia.
From Verif Require Import Base Num NumR MotionModel ProfileSpec.
Open Scope R_scope.

(** *** Derivatives of functions defined piecewise *)
Lemma dlim_local (f g : R -> R) t l e : 0 < e -> (forall x, Rabs (x - t) < e -> f x = g x) ->
  derivable_pt_lim g t l -> derivable_pt_lim f t l.
Proof.
  intros He Heq Hg eps Heps. destruct (Hg eps Heps) as (del & Hd).
  assert (Hm : 0 < Rmin del e) by (apply Rmin_pos; [apply cond_pos|auto]).
  exists (mkposreal _ Hm). intros h h0 Hh. cbn in Hh.
  rewrite !Heq.
  - apply Hd; auto. eapply Rlt_le_trans; [exact Hh|apply Rmin_l].
  - replace (t - t) with 0 by ring. rewrite Rabs_R0. auto.
  - replace (t + h - t) with h by ring. eapply Rlt_le_trans; [exact Hh|apply Rmin_r].
Qed.

Lemma dlim_glue (P : forall t : R, bool) f1 f2 t l : f1 t = f2 t ->
  derivable_pt_lim f1 t l -> derivable_pt_lim f2 t l ->
  derivable_pt_lim (fun x => if P x then f1 x else f2 x) t l.
Proof.
  intros E H1 H2 eps He. destruct (H1 eps He) as (d1 & D1). destruct (H2 eps He) as (d2 & D2).
  assert (Hm : 0 < Rmin d1 d2) by (apply Rmin_pos; apply cond_pos).
  exists (mkposreal _ Hm). intros h h0 Hh. cbn in Hh.
  replace (if P t then f1 t else f2 t) with (f1 t) by (destruct (P t); auto).
  destruct (P (t + h)).
  - apply D1; auto. eapply Rlt_le_trans; [exact Hh|apply Rmin_l].
  - rewrite E. apply D2; auto. eapply Rlt_le_trans; [exact Hh|apply Rmin_r].
Qed.

Lemma rltb_if {T} a b (x y : T) : (if rltb a b then x else y) = if Rlt_dec a b then x else y.
Proof. unfold rltb. destruct (Rlt_dec a b); reflexivity. Qed.

(** [f1] before b, [f2] from b on *)
Lemma dlim_before f1 f2 (d1 d2 : R -> R) b : f1 b = f2 b -> d1 b = d2 b ->
  (forall t, derivable_pt_lim f1 t (d1 t)) -> (forall t, derivable_pt_lim f2 t (d2 t)) ->
  forall t, derivable_pt_lim (fun x => if rltb x b then f1 x else f2 x) t (if rltb t b then d1 t else d2 t).
Proof.
  intros E Ed H1 H2 t. destruct (Rtotal_order t b) as [L|[->|L]].
  - rewrite rltb_if. destruct (Rlt_dec t b) as [_|]; [|lra].
    apply (dlim_local _ f1 _ _ (b - t)); [lra| |auto].
    intros x Hx. rewrite rltb_if. apply Rabs_def2 in Hx. destruct (Rlt_dec x b); auto; lra.
  - rewrite rltb_if. destruct (Rlt_dec b b) as [|_]; [lra|].
    apply (dlim_glue (fun x => rltb x b)); auto. rewrite <- Ed. auto.
  - rewrite rltb_if. destruct (Rlt_dec t b) as [|_]; [lra|].
    apply (dlim_local _ f2 _ _ (t - b)); [lra| |auto].
    intros x Hx. rewrite rltb_if. apply Rabs_def2 in Hx. destruct (Rlt_dec x b); auto; lra.
Qed.
(** [f1] after b, [f2] up to b *)
Lemma dlim_after f1 f2 (d1 d2 : R -> R) b : f1 b = f2 b -> d1 b = d2 b ->
  (forall t, derivable_pt_lim f1 t (d1 t)) -> (forall t, derivable_pt_lim f2 t (d2 t)) ->
  forall t, derivable_pt_lim (fun x => if rltb b x then f1 x else f2 x) t (if rltb b t then d1 t else d2 t).
Proof.
  intros E Ed H1 H2 t. destruct (Rtotal_order t b) as [L|[->|L]].
  - rewrite rltb_if. destruct (Rlt_dec b t) as [|_]; [lra|].
    apply (dlim_local _ f2 _ _ (b - t)); [lra| |auto].
    intros x Hx. rewrite rltb_if. apply Rabs_def2 in Hx. destruct (Rlt_dec b x); auto; lra.
  - rewrite rltb_if. destruct (Rlt_dec b b) as [|_]; [lra|].
    apply (dlim_glue (fun x => rltb b x)); auto. rewrite <- Ed. auto.
  - rewrite rltb_if. destruct (Rlt_dec b t) as [_|]; [|lra].
    apply (dlim_local _ f1 _ _ (t - b)); [lra| |auto].
    intros x Hx. rewrite rltb_if. apply Rabs_def2 in Hx. destruct (Rlt_dec b x); auto; lra.
Qed.

(** polynomials of degree <= 3 *)
Lemma dlim_poly c0 c1 c2 c3 t :
  derivable_pt_lim (fun x => c0 + c1 * x + c2 * (x * x) + c3 * (x * x * x)) t (c1 + 2 * c2 * t + 3 * c3 * (t * t)).
Proof.
  replace (c1 + 2 * c2 * t + 3 * c3 * (t * t))
    with (0 + c1 * 1 + c2 * (1 * t + t * 1) + c3 * ((1 * t + t * 1) * t + (t * t) * 1)) by ring.
  change (derivable_pt_lim (fct_cte c0 + mult_real_fct c1 id + mult_real_fct c2 (id * id)
            + mult_real_fct c3 (id * id * id)) t
          (0 + c1 * 1 + c2 * (1 * id t + id t * 1) + c3 * ((1 * id t + id t * 1) * id t + (id t * id t) * 1))).
  repeat first [ apply derivable_pt_lim_plus | apply derivable_pt_lim_const | apply derivable_pt_lim_scal
               | apply derivable_pt_lim_mult | apply derivable_pt_lim_id ].
  apply (derivable_pt_lim_mult (mult_fct id id) id t (1 * id t + id t * 1) 1);
    [apply derivable_pt_lim_mult|]; apply derivable_pt_lim_id.
Qed.
Lemma dlim_ext f g t l l' : (forall x, f x = g x) -> l = l' -> derivable_pt_lim g t l' -> derivable_pt_lim f t l.
Proof. intros H -> Hg. apply (dlim_local f g t l' 1); auto. lra. Qed.

Lemma cont_of_dlim f t l : derivable_pt_lim f t l -> continuity_pt f t.
Proof. intro H. apply derivable_continuous_pt. exists l. exact H. Qed.

Lemma cont_glue (P : R -> bool) f1 f2 t : f1 t = f2 t -> continuity_pt f1 t -> continuity_pt f2 t ->
  continuity_pt (fun x => if P x then f1 x else f2 x) t.
Proof.
  intros E H1 H2 eps He. destruct (H1 eps He) as (d1 & P1 & D1). destruct (H2 eps He) as (d2 & P2 & D2).
  exists (Rmin d1 d2). split; [apply Rmin_pos; auto|]. intros x (X1 & X2). cbn in *. unfold R_dist in *.
  replace (if P t then f1 t else f2 t) with (f1 t) by (destruct (P t); auto).
  destruct (P x).
  - apply D1. split; auto. eapply Rlt_le_trans; [exact X2|apply Rmin_l].
  - rewrite E. apply D2. split; auto. eapply Rlt_le_trans; [exact X2|apply Rmin_r].
Qed.
Lemma cont_local (f g : R -> R) t e : 0 < e -> (forall x, Rabs (x - t) < e -> f x = g x) ->
  continuity_pt g t -> continuity_pt f t.
Proof.
  intros He Heq Hg eps Heps. destruct (Hg eps Heps) as (d & Pd & D).
  exists (Rmin d e). split; [apply Rmin_pos; auto|]. intros x (X1 & X2). cbn in *. unfold R_dist in *.
  rewrite !Heq.
  - apply D. split; auto. eapply Rlt_le_trans; [exact X2|apply Rmin_l].
  - replace (t - t) with 0 by ring. rewrite Rabs_R0. auto.
  - eapply Rlt_le_trans; [exact X2|apply Rmin_r].
Qed.
Lemma cont_before f1 f2 b t : f1 b = f2 b -> continuity f1 -> continuity f2 ->
  continuity_pt (fun x => if rltb x b then f1 x else f2 x) t.
Proof.
  intros E H1 H2. destruct (Rtotal_order t b) as [L|[->|L]].
  - apply (cont_local _ f1 _ (b - t)); [lra| |apply H1].
    intros x Hx. rewrite rltb_if. apply Rabs_def2 in Hx. destruct (Rlt_dec x b); auto; lra.
  - apply (cont_glue (fun x => rltb x b)); auto.
  - apply (cont_local _ f2 _ (t - b)); [lra| |apply H2].
    intros x Hx. rewrite rltb_if. apply Rabs_def2 in Hx. destruct (Rlt_dec x b); auto; lra.
Qed.
Lemma cont_after f1 f2 b t : f1 b = f2 b -> continuity f1 -> continuity f2 ->
  continuity_pt (fun x => if rltb b x then f1 x else f2 x) t.
Proof.
  intros E H1 H2. destruct (Rtotal_order t b) as [L|[->|L]].
  - apply (cont_local _ f2 _ (b - t)); [lra| |apply H2].
    intros x Hx. rewrite rltb_if. apply Rabs_def2 in Hx. destruct (Rlt_dec b x); auto; lra.
  - apply (cont_glue (fun x => rltb b x)); auto.
  - apply (cont_local _ f1 _ (t - b)); [lra| |apply H1].
    intros x Hx. rewrite rltb_if. apply Rabs_def2 in Hx. destruct (Rlt_dec b x); auto; lra.
Qed.
Lemma cont_poly c0 c1 c2 c3 : continuity (fun x => c0 + c1 * x + c2 * (x * x) + c3 * (x * x * x)).
Proof. intro t. eapply cont_of_dlim. apply dlim_poly. Qed.
Lemma cont_ext f g : (forall x, f x = g x) -> continuity g -> continuity f.
Proof. intros H Hg t. apply (cont_local f g t 1); auto; lra. Qed.

(** *** A ramp as seven real numbers *)
Record ramp := mkR { r_v0 : R; r_v1 : R; r_J : R; r_A : R; r_d1 : R; r_d2 : R }.
Definition r_T r := r_d1 r + r_d2 r + r_d1 r.
Definition r_L r := (r_v0 r + r_v1 r) * r_T r * (1/2).
Definition r_s r t :=
  if rltb t (r_d1 r) then r_v0 r * t + r_J r * t * t * t * (1/6)
  else if rltb (r_d1 r + r_d2 r) t
       then r_L r - (r_v1 r * (r_T r - t) - r_J r * (r_T r - t) * (r_T r - t) * (r_T r - t) * (1/6))
  else r_v0 r * r_d1 r + r_J r * r_d1 r * r_d1 r * r_d1 r * (1/6)
       + (r_v0 r + r_J r * r_d1 r * r_d1 r * (1/2)) * (t - r_d1 r) + r_A r * (t - r_d1 r) * (t - r_d1 r) * (1/2).
Definition r_v r t :=
  if rltb t (r_d1 r) then r_v0 r + r_J r * t * t * (1/2)
  else if rltb (r_d1 r + r_d2 r) t then r_v1 r - r_J r * (r_T r - t) * (r_T r - t) * (1/2)
  else r_v0 r + r_J r * r_d1 r * r_d1 r * (1/2) + r_A r * (t - r_d1 r).
Definition r_a r t :=
  if rltb t (r_d1 r) then r_J r * t
  else if rltb (r_d1 r + r_d2 r) t then r_J r * (r_T r - t)
  else r_A r.

Definition r_good (o : profileOrder) (v0 v1 a d j : R) (r : ramp) : Prop :=
  r_v0 r = v0 /\ r_v1 r = v1 /\ 0 <= r_d1 r /\ 0 <= r_d2 r /\
  v1 = v0 + r_J r * r_d1 r * r_d1 r + r_A r * r_d2 r /\
  ((v0 < v1 /\ r_J r = j /\ 0 <= r_A r <= a) \/ (v1 <= v0 /\ r_J r = - j /\ d <= r_A r <= 0)) /\
  (o = secondOrder -> r_A r = r_J r * r_d1 r /\ (r_d2 r = 0 \/ r_A r = a \/ r_A r = d)) /\
  (o = firstOrder -> r_d1 r = 0 /\ r_d2 r = if Rlt_dec v0 v1 then (v1 - v0) / a else (v1 - v0) / d).

Lemma r_s_dlim r t : r_v1 r = r_v0 r + r_J r * r_d1 r * r_d1 r + r_A r * r_d2 r -> 0 <= r_d2 r ->
  derivable_pt_lim (r_s r) t (r_v r t).
Proof.
  intros E H2. unfold r_s, r_v. destruct r as [v0 v1 J A d1 d2]. cbn [r_v0 r_v1 r_J r_A r_d1 r_d2] in *.
  set (T := r_T (mkR v0 v1 J A d1 d2)). set (L := r_L (mkR v0 v1 J A d1 d2)).
  assert (ET : T = d1 + d2 + d1) by reflexivity. assert (EL : L = (v0 + v1) * T * (1/2)) by reflexivity.
  clearbody T L.
  apply (dlim_before (fun t => v0 * t + J * t * t * t * (1/6))
     (fun t => if rltb (d1 + d2) t then L - (v1 * (T - t) - J * (T - t) * (T - t) * (T - t) * (1/6)) else
        v0 * d1 + J * d1 * d1 * d1 * (1/6) + (v0 + J * d1 * d1 * (1/2)) * (t - d1) + A * (t - d1) * (t - d1) * (1/2))
     (fun t => v0 + J * t * t * (1/2))
     (fun t => if rltb (d1 + d2) t then v1 - J * (T - t) * (T - t) * (1/2) else v0 + J * d1 * d1 * (1/2) + A * (t - d1)) d1).
  - rewrite rltb_if. destruct (Rlt_dec (d1 + d2) d1); [lra|]. field.
  - rewrite rltb_if. destruct (Rlt_dec (d1 + d2) d1); [lra|]. field.
  - intro x. eapply dlim_ext; [| |apply (dlim_poly 0 v0 0 (J / 6))]; intros; cbv beta; field.
  - apply (dlim_after (fun t => L - (v1 * (T - t) - J * (T - t) * (T - t) * (T - t) * (1/6)))
       (fun t => v0 * d1 + J * d1 * d1 * d1 * (1/6) + (v0 + J * d1 * d1 * (1/2)) * (t - d1) + A * (t - d1) * (t - d1) * (1/2))
       (fun t => v1 - J * (T - t) * (T - t) * (1/2)) (fun t => v0 + J * d1 * d1 * (1/2) + A * (t - d1)) (d1 + d2)).
    + rewrite EL, ET, E. field.
    + rewrite ET, E. field.
    + intro x. eapply dlim_ext;
        [| |apply (dlim_poly (L - v1 * T + J * T * T * T / 6) (v1 - J * T * T / 2) (J * T / 2) (- J / 6))]; intros; cbv beta; field.
    + intro x. eapply dlim_ext;
        [| |apply (dlim_poly (v0 * d1 + J * d1 * d1 * d1 / 6 - (v0 + J * d1 * d1 / 2) * d1 + A * d1 * d1 / 2)
                    (v0 + J * d1 * d1 / 2 - A * d1) (A / 2) 0)]; intros; cbv beta; field.
Qed.

Lemma r_v_cont r t : r_v1 r = r_v0 r + r_J r * r_d1 r * r_d1 r + r_A r * r_d2 r -> 0 <= r_d2 r ->
  continuity_pt (r_v r) t.
Proof.
  intros E H2. unfold r_v. destruct r as [v0 v1 J A d1 d2]. cbn [r_v0 r_v1 r_J r_A r_d1 r_d2] in *.
  set (T := r_T (mkR v0 v1 J A d1 d2)). assert (ET : T = d1 + d2 + d1) by reflexivity. clearbody T.
  apply (cont_before (fun t => v0 + J * t * t * (1/2))
     (fun t => if rltb (d1 + d2) t then v1 - J * (T - t) * (T - t) * (1/2) else v0 + J * d1 * d1 * (1/2) + A * (t - d1)) d1).
  - rewrite rltb_if. destruct (Rlt_dec (d1 + d2) d1); [lra|]. field.
  - eapply cont_ext; [|apply (cont_poly v0 0 (J/2) 0)]. intro; cbv beta; field.
  - intro x. apply (cont_after (fun t => v1 - J * (T - t) * (T - t) * (1/2)) (fun t => v0 + J * d1 * d1 * (1/2) + A * (t - d1)) (d1 + d2)).
    + rewrite ET, E. field.
    + eapply cont_ext; [|apply (cont_poly (v1 - J * T * T / 2) (J * T) (- J / 2) 0)]. intro; cbv beta; field.
    + eapply cont_ext; [|apply (cont_poly (v0 + J * d1 * d1 / 2 - A * d1) A 0 0)]. intro; cbv beta; field.
Qed.

(** second order: acceleration continuous *)
Lemma r_v_dlim2 r t : r_v1 r = r_v0 r + r_J r * r_d1 r * r_d1 r + r_A r * r_d2 r -> 0 <= r_d2 r ->
  r_A r = r_J r * r_d1 r -> derivable_pt_lim (r_v r) t (r_a r t).
Proof.
  intros E H2 EA. unfold r_v, r_a. destruct r as [v0 v1 J A d1 d2]. cbn [r_v0 r_v1 r_J r_A r_d1 r_d2] in *.
  set (T := r_T (mkR v0 v1 J A d1 d2)). assert (ET : T = d1 + d2 + d1) by reflexivity. clearbody T.
  apply (dlim_before (fun t => v0 + J * t * t * (1/2))
     (fun t => if rltb (d1 + d2) t then v1 - J * (T - t) * (T - t) * (1/2) else v0 + J * d1 * d1 * (1/2) + A * (t - d1))
     (fun t => J * t) (fun t => if rltb (d1 + d2) t then J * (T - t) else A) d1).
  - rewrite rltb_if. destruct (Rlt_dec (d1 + d2) d1); [lra|]. field.
  - rewrite rltb_if. destruct (Rlt_dec (d1 + d2) d1); [lra|]. lra.
  - intro x. eapply dlim_ext; [| |apply (dlim_poly v0 0 (J / 2) 0)]; intros; cbv beta; field.
  - apply (dlim_after (fun t => v1 - J * (T - t) * (T - t) * (1/2)) (fun t => v0 + J * d1 * d1 * (1/2) + A * (t - d1))
            (fun t => J * (T - t)) (fun t => A) (d1 + d2)).
    + rewrite ET, E. field.
    + rewrite ET, EA. ring.
    + intro x. eapply dlim_ext; [| |apply (dlim_poly (v1 - J * T * T / 2) (J * T) (- J / 2) 0)]; intros; cbv beta; field.
    + intro x. eapply dlim_ext; [| |apply (dlim_poly (v0 + J * d1 * d1 / 2 - A * d1) A 0 0)]; intros; cbv beta; field.
Qed.

(** first order: constant acceleration inside *)
Lemma r_v_dlim1 r t : r_d1 r = 0 -> 0 < t < r_T r -> derivable_pt_lim (r_v r) t (r_a r t).
Proof.
  intros E Ht. unfold r_v, r_a, r_T in *. destruct r as [v0 v1 J A d1 d2]. cbn [r_v0 r_v1 r_J r_A r_d1 r_d2] in *. subst d1.
  rewrite ?rltb_if. destruct (Rlt_dec t 0); [lra|]. destruct (Rlt_dec (0 + d2) t); [lra|].
  apply (dlim_local _ (fun t => v0 + A * t) _ _ (Rmin t (d2 - t))).
  - apply Rmin_pos; lra.
  - intros x Hx. rewrite ?rltb_if. pose proof (Rmin_l t (d2 - t)). pose proof (Rmin_r t (d2 - t)).
    apply Rabs_def2 in Hx. destruct (Rlt_dec x 0); [lra|]. destruct (Rlt_dec (0 + d2) x); [lra|]. field.
  - eapply dlim_ext; [| |apply (dlim_poly v0 A 0 0)]; intros; cbv beta; field.
Qed.

Ltac rcases := repeat match goal with
  | |- context [if rltb ?a ?b then _ else _] => rewrite (rltb_if a b); destruct (Rlt_dec a b)
  end.

Lemma sq_mono x y : 0 <= x -> x <= y -> x * x <= y * y.
Proof. intros. apply Rmult_le_compat; lra. Qed.

Lemma r_spec o v0 v1 a d j r : 0 <= v0 -> 0 <= v1 -> 0 < a -> d < 0 -> 0 < j -> r_good o v0 v1 a d j r ->
  ramp_spec o v0 v1 a d j (r_T r) (r_L r) (r_s r) (r_v r) (r_a r).
Proof.
  intros V0 V1 Ha Hd Hj (E0 & E1 & D1 & D2 & EV & SG & SO & FO).
  assert (HT : 0 <= r_T r) by (unfold r_T; lra).
  assert (EQ : r_v1 r = r_v0 r + r_J r * r_d1 r * r_d1 r + r_A r * r_d2 r) by congruence.
  pose proof (Rmult_le_pos _ _ D1 D1) as DD.
  constructor.
  - exact HT.
  - unfold r_L. rewrite E0, E1. apply Rmult_le_pos; [|lra]. apply Rmult_le_pos; lra.
  - unfold r_s, r_v. rewrite ?rltb_if. destruct (Rlt_dec 0 (r_d1 r)).
    + rewrite E0. split; ring.
    + assert (X : r_d1 r = 0) by lra. rewrite ?rltb_if. destruct (Rlt_dec _ 0); [lra|]. rewrite X, E0. split; ring.
  - unfold r_s, r_v. rewrite ?rltb_if. destruct (Rlt_dec (r_T r) (r_d1 r)) as [L|_]; [unfold r_T in L; lra|].
    rewrite ?rltb_if. destruct (Rlt_dec (r_d1 r + r_d2 r) (r_T r)) as [L|L].
    + rewrite E1. split; ring.
    + assert (X : r_d1 r = 0) by (unfold r_T in L; lra). unfold r_L, r_T. rewrite X, E0, E1 in *. split; [rewrite EV; field|rewrite EV; ring].
  - intros t _. apply r_s_dlim; auto.
  - intros t _. apply r_v_cont; auto.
  - intros t Ht. destruct o.
    + destruct FO as [X _]; auto. apply r_v_dlim1; auto.
    + apply r_v_dlim2; auto. apply SO; auto.
  - intros t Ht. unfold r_T in Ht.
    assert (K1 : forall x, 0 <= x <= r_d1 r -> 0 <= x * x <= r_d1 r * r_d1 r).
    { intros x Hx. split; [apply Rmult_le_pos; lra|apply sq_mono; lra]. }
    destruct SG as [(V & EJ & A0 & A1)|(V & EJ & A0 & A1)].
    + rewrite Rmin_left, Rmax_right by lra. unfold r_v.
      assert (AP : 0 <= r_A r * r_d2 r) by (apply Rmult_le_pos; lra).
      rcases; rewrite ?E0, ?E1, EJ in *.
      * specialize (K1 t ltac:(lra)). assert (0 <= j * (t * t) <= j * (r_d1 r * r_d1 r)).
        { split; [apply Rmult_le_pos; lra|apply Rmult_le_compat_l; lra]. } lra.
      * unfold r_T. specialize (K1 (r_d1 r + r_d2 r + r_d1 r - t) ltac:(lra)).
        set (x := r_d1 r + r_d2 r + r_d1 r - t) in *. assert (0 <= j * (x * x) <= j * (r_d1 r * r_d1 r)).
        { split; [apply Rmult_le_pos; lra|apply Rmult_le_compat_l; lra]. } lra.
      * assert (0 <= r_A r * (t - r_d1 r) <= r_A r * r_d2 r).
        { split; [apply Rmult_le_pos; lra|apply Rmult_le_compat_l; lra]. }
        assert (0 <= j * (r_d1 r * r_d1 r)) by (apply Rmult_le_pos; lra). lra.
    + rewrite Rmin_right, Rmax_left by lra. unfold r_v.
      assert (AP : 0 <= - r_A r * r_d2 r) by (apply Rmult_le_pos; lra).
      rcases; rewrite ?E0, ?E1, EJ in *.
      * specialize (K1 t ltac:(lra)). assert (0 <= j * (t * t) <= j * (r_d1 r * r_d1 r)).
        { split; [apply Rmult_le_pos; lra|apply Rmult_le_compat_l; lra]. } lra.
      * unfold r_T. specialize (K1 (r_d1 r + r_d2 r + r_d1 r - t) ltac:(lra)).
        set (x := r_d1 r + r_d2 r + r_d1 r - t) in *. assert (0 <= j * (x * x) <= j * (r_d1 r * r_d1 r)).
        { split; [apply Rmult_le_pos; lra|apply Rmult_le_compat_l; lra]. } lra.
      * assert (0 <= - r_A r * (t - r_d1 r) <= - r_A r * r_d2 r).
        { split; [apply Rmult_le_pos; lra|apply Rmult_le_compat_l; lra]. }
        assert (0 <= j * (r_d1 r * r_d1 r)) by (apply Rmult_le_pos; lra). lra.
  - intros t Ht. unfold r_T in Ht. unfold r_a, r_T.
    assert (JB : 0 < r_d1 r -> d <= r_J r * r_d1 r <= a).
    { intro P. destruct o. - destruct FO as [X _]; auto. lra.
      - destruct (SO eq_refl) as [<- _]. lra. }
    destruct SG as [(V & EJ & A0 & A1)|(V & EJ & A0 & A1)]; rewrite EJ in *.
    + assert (X : forall x, 0 <= x <= r_d1 r -> 0 < r_d1 r -> d <= j * x <= a).
      { intros x Hx P. specialize (JB P). assert (0 <= j * x <= j * r_d1 r) by (split; [apply Rmult_le_pos; lra|apply Rmult_le_compat_l; lra]). lra. }
      rcases; [apply X; lra|apply X; lra|lra].
    + assert (X : forall x, 0 <= x <= r_d1 r -> 0 < r_d1 r -> d <= - j * x <= a).
      { intros x Hx P. specialize (JB P). assert (0 <= j * x <= j * r_d1 r) by (split; [apply Rmult_le_pos; lra|apply Rmult_le_compat_l; lra]). lra. }
      rcases; [apply X; lra|apply X; lra|lra].
  - intros HO t1 t2 H1 H2. destruct (SO HO) as [SO' _]. clear SO. rename SO' into SO.
    assert (EA : forall t, 0 <= t <= r_T r -> r_a r t = r_J r * Rmin (r_d1 r) (Rmin t (r_T r - t))).
    { intros t Ht. unfold r_a. unfold r_T in *. rcases; unfold Rmin; repeat destruct (Rle_dec _ _); try lra;
        rewrite ?SO; try reflexivity; f_equal; lra. }
    rewrite !EA by auto.
    assert (AJ : Rabs (r_J r) = j). { destruct SG as [(_ & -> & _)|(_ & -> & _)]; [|rewrite Rabs_Ropp]; apply Rabs_pos_eq; lra. }
    rewrite <- Rmult_minus_distr_l, Rabs_mult, AJ. apply Rmult_le_compat_l; [lra|].
    unfold Rmin, Rabs. repeat destruct (Rle_dec _ _); repeat destruct (Rcase_abs _); lra.
  - intro HO. destruct (SO HO) as [SO' _]. clear SO. rename SO' into SO. unfold r_a. split.
    + rcases; [ring|lra|]. rewrite SO. replace (r_d1 r) with 0 by lra. ring.
    + unfold r_T. rcases; [lra|ring|]. rewrite SO. replace (r_d1 r) with 0 by lra. ring.
  - intro HO. destruct (FO HO) as [X Y]. unfold r_T. rewrite X, Y. ring.
  - unfold r_L. rewrite E0, E1. field.
Qed.

(** *** The model's profile is such a ramp *)
Definition matches (q : accdec xr) (r : ramp) : Prop :=
  ad_vStart q = XF (r_v0 r) /\ ad_vEnd q = XF (r_v1 r) /\
  (exists j, ad_jMax q = XF j /\ r_J r = if rltb (r_v0 r) (r_v1 r) then j else - j) /\
  (if rltb (r_v0 r) (r_v1 r) then ad_aMax q else ad_dMax q) = XF (r_A r) /\
  ad_dV1 q = XF (r_J r * r_d1 r * r_d1 r * (1/2)) /\
  ad_s1 q = XF (r_v0 r * r_d1 r + r_J r * r_d1 r * r_d1 r * r_d1 r * (1/6)) /\
  ad_length q = XF (r_L r) /\ ad_d1d3 q = XF (r_d1 r) /\ ad_d2 q = XF (r_d2 r) /\ ad_duration q = XF (r_T r).

Lemma half_eq : ndec x_num 5 1 = XF (1/2).
Proof. change (XF (5 / 10 ^ 1) = XF (1/2)). f_equal. field. Qed.
Lemma sixth_eq : ndiv x_num (nofZ x_num 1) (nofZ x_num 6) = XF (1/6).
Proof. cbn. destruct (Req_EM_T 6 0); [lra|]. reflexivity. Qed.
Lemma xdiv_nz x y : y <> 0 -> xdiv (XF x) (XF y) = XF (x / y).
Proof. intro H. cbn. destruct (Req_EM_T y 0); [lra|reflexivity]. Qed.
Lemma xsqrt_nn x : 0 <= x -> xsqrt (XF x) = XF (sqrt x).
Proof. intro H. cbn. destruct (Rlt_dec x 0); [lra|reflexivity]. Qed.

Ltac xs := cbn [nadd nsub nmul ndiv nopp nabs nsqrt nltb nleb neqb nofZ ninf x_num xadd xsub xmul xopp xabs xltb].
Ltac xs_in H := cbn [nadd nsub nmul ndiv nopp nabs nsqrt nltb nleb neqb nofZ ninf x_num xadd xsub xmul xopp xabs xltb] in H.

Lemma matches_s q r t : matches q r -> ad_s x_num q (XF t) = XF (r_s r t).
Proof.
  intros (H1 & H2 & (j & H3 & HJ) & H4 & H5 & H6 & H7 & H8 & H9 & H10). unfold ad_s, r_s.
  rewrite half_eq, sixth_eq, H1, H2, H3, H5, H6, H7, H8, H9, H10. xs.
  destruct (rltb (r_v0 r) (r_v1 r)); rewrite H4, HJ; xs; destruct (rltb t (r_d1 r)); [|destruct (rltb _ t)| |destruct (rltb _ t)];
    f_equal; ring.
Qed.
Lemma matches_v q r t : matches q r -> ad_v x_num q (XF t) = XF (r_v r t).
Proof.
  intros (H1 & H2 & (j & H3 & HJ) & H4 & H5 & H6 & H7 & H8 & H9 & H10). unfold ad_v, r_v.
  rewrite half_eq, H1, H2, H3, H5, H8, H9, H10. xs.
  destruct (rltb (r_v0 r) (r_v1 r)); rewrite H4, HJ; xs; destruct (rltb t (r_d1 r)); [|destruct (rltb _ t)| |destruct (rltb _ t)];
    f_equal; ring.
Qed.
Lemma matches_a q r t : matches q r -> ad_a x_num q (XF t) = XF (r_a r t).
Proof.
  intros (H1 & H2 & (j & H3 & HJ) & H4 & H5 & H6 & H7 & H8 & H9 & H10). unfold ad_a, r_a, r_T.
  rewrite H1, H2, H3, H8, H9. xs.
  destruct (rltb (r_v0 r) (r_v1 r)); rewrite H4, HJ; xs; destruct (rltb t (r_d1 r)); [|destruct (rltb _ t)| |destruct (rltb _ t)];
    f_equal; ring.
Qed.

Lemma calc_ramp o p v0 v1 a d j : 0 <= v0 -> 0 <= v1 -> 0 < a -> d < 0 -> 0 < j ->
  ad_vStart p = XF v0 -> ad_vEnd p = XF v1 -> ad_aMax p = XF a -> ad_dMax p = XF d -> ad_jMax p = XF j ->
  exists r, matches (ad_calculate x_num p o) r /\ r_good o v0 v1 a d j r.
Proof.
  intros V0 V1 Ha Hd Hj E0 E1 EA ED EJ. unfold ad_calculate. rewrite E0, E1, EA, ED, EJ, half_eq, sixth_eq.
  destruct o.
  - (* first order *)
    destruct (Rlt_dec v0 v1) as [L|L].
    + exists (mkR v0 v1 j a 0 ((v1 - v0) / a)).
      assert (0 <= (v1 - v0) / a) by (apply Rmult_le_pos; [lra|apply Rlt_le, Rinv_0_lt_compat; lra]).
      xs. rewrite (rltb_if v0 v1). destruct (Rlt_dec v0 v1); [|lra]. rewrite xdiv_nz by lra. xs. split.
      * unfold matches, r_L, r_T. cbn [ad_vStart ad_vEnd ad_jMax ad_aMax ad_dMax ad_dV1 ad_s1 ad_length ad_d1d3 ad_d2 ad_duration r_v0 r_v1 r_J r_A r_d1 r_d2].
        rewrite (rltb_if v0 v1). destruct (Rlt_dec v0 v1); [|lra].
        split; [reflexivity|]. split; [reflexivity|]. split; [exists j; split; [reflexivity|]; rewrite rltb_if; destruct (Rlt_dec v0 v1); [reflexivity|lra]|].
        split; [reflexivity|]. repeat split; f_equal; ring.
      * unfold r_good. cbn [r_v0 r_v1 r_J r_A r_d1 r_d2]. split; auto. split; auto. split; [lra|]. split; auto.
        split; [field; lra|]. split; [left; lra|]. split; [discriminate|]. intros _. split; auto. destruct (Rlt_dec v0 v1); [reflexivity|lra].
    + exists (mkR v0 v1 (- j) d 0 ((v1 - v0) / d)).
      assert (0 <= (v1 - v0) / d).
      { replace ((v1 - v0) / d) with ((v0 - v1) / - d) by (field; lra). apply Rmult_le_pos; [lra|apply Rlt_le, Rinv_0_lt_compat; lra]. }
      xs. rewrite (rltb_if v0 v1). destruct (Rlt_dec v0 v1); [lra|]. rewrite xdiv_nz by lra. xs. split.
      * unfold matches, r_L, r_T. cbn [ad_vStart ad_vEnd ad_jMax ad_aMax ad_dMax ad_dV1 ad_s1 ad_length ad_d1d3 ad_d2 ad_duration r_v0 r_v1 r_J r_A r_d1 r_d2].
        rewrite (rltb_if v0 v1). destruct (Rlt_dec v0 v1); [lra|].
        split; [reflexivity|]. split; [reflexivity|]. split; [exists j; split; [reflexivity|]; rewrite rltb_if; destruct (Rlt_dec v0 v1); [lra|reflexivity]|].
        split; [reflexivity|]. repeat split; f_equal; ring.
      * unfold r_good. cbn [r_v0 r_v1 r_J r_A r_d1 r_d2]. split; auto. split; auto. split; [lra|]. split; auto.
        split; [field; lra|]. split; [right; lra|]. split; [discriminate|]. intros _. split; auto. destruct (Rlt_dec v0 v1); [lra|reflexivity].
  - destruct (Rlt_dec v0 v1) as [L|L].
    + xs. rewrite (rltb_if v0 v1). destruct (Rlt_dec v0 v1); [|lra]. rewrite xdiv_nz by lra. xs.
      rewrite rltb_if. destruct (Rlt_dec (v1 - v0) (j * (a / j) * (a / j))) as [S|S].
      * rewrite xdiv_nz by lra.
        assert (P : 0 <= (v1 - v0) / j) by (apply Rmult_le_pos; [lra|apply Rlt_le, Rinv_0_lt_compat; lra]).
        rewrite xsqrt_nn by auto. xs. set (q := sqrt ((v1 - v0) / j)).
        assert (Q0 : 0 <= q) by apply sqrt_pos.
        assert (QQ : q * q = (v1 - v0) / j) by (apply sqrt_sqrt; auto).
        assert (QJ : j * q * q = v1 - v0) by (rewrite Rmult_assoc, QQ; field; lra).
        exists (mkR v0 v1 j (j * q) q 0). split.
        -- unfold matches, r_L, r_T. cbn [ad_vStart ad_vEnd ad_jMax ad_aMax ad_dMax ad_dV1 ad_s1 ad_length ad_d1d3 ad_d2 ad_duration r_v0 r_v1 r_J r_A r_d1 r_d2].
           rewrite (rltb_if v0 v1). destruct (Rlt_dec v0 v1); [|lra].
           split; [reflexivity|]. split; [reflexivity|]. split; [exists j; split; [reflexivity|]; rewrite rltb_if; destruct (Rlt_dec v0 v1); [reflexivity|lra]|].
           split; [reflexivity|]. repeat split; f_equal; ring.
        -- unfold r_good. cbn [r_v0 r_v1 r_J r_A r_d1 r_d2]. split; auto. split; auto. split; auto. split; [lra|].
           split; [lra|]. split; [left; split; auto; split; auto; split; [apply Rmult_le_pos; lra|]|].
           { apply Rnot_lt_le. intro C. assert (B : j * q * q < j * (a / j) * (a / j)) by lra.
             replace (j * (a / j) * (a / j)) with (a * (a / j)) in B by (field; lra).
             assert (C2 : a / j < q) by (apply (Rmult_lt_reg_l j); [lra|]; replace (j * (a / j)) with a by (field; lra); lra).
             assert (0 < a / j) by (apply Rmult_lt_0_compat; [lra|apply Rinv_0_lt_compat; lra]).
             assert (a * (a / j) < j * q * q) by (apply Rmult_gt_0_lt_compat; lra). lra. }
           split; [auto 6|]. discriminate.
      * xs. rewrite xdiv_nz by lra.
        set (q := a / j). assert (QJ : j * q = a) by (unfold q; field; lra).
        assert (Q0 : 0 < q) by (apply Rmult_lt_0_compat; [lra|apply Rinv_0_lt_compat; lra]).
        fold q in S. exists (mkR v0 v1 j a q ((v1 - v0 - j * q * q) / a)). split.
        -- unfold matches, r_L, r_T. cbn [ad_vStart ad_vEnd ad_jMax ad_aMax ad_dMax ad_dV1 ad_s1 ad_length ad_d1d3 ad_d2 ad_duration r_v0 r_v1 r_J r_A r_d1 r_d2].
           rewrite (rltb_if v0 v1). destruct (Rlt_dec v0 v1); [|lra].
           split; [reflexivity|]. split; [reflexivity|]. split; [exists j; split; [reflexivity|]; rewrite rltb_if; destruct (Rlt_dec v0 v1); [reflexivity|lra]|].
           split; [reflexivity|]. repeat split; f_equal; ring.
        -- unfold r_good. cbn [r_v0 r_v1 r_J r_A r_d1 r_d2]. split; auto. split; auto. split; [lra|].
           split; [apply Rmult_le_pos; [lra|apply Rlt_le, Rinv_0_lt_compat; lra]|].
           split; [field; lra|]. split; [left; lra|]. split; [auto 6|]. discriminate.
    + xs. rewrite (rltb_if v0 v1). destruct (Rlt_dec v0 v1); [lra|]. rewrite xdiv_nz by lra. xs.
      rewrite rltb_if. destruct (Rlt_dec (v0 - v1) (j * (- d / j) * (- d / j))) as [S|S].
      * rewrite xdiv_nz by lra.
        assert (P : 0 <= (v0 - v1) / j) by (apply Rmult_le_pos; [lra|apply Rlt_le, Rinv_0_lt_compat; lra]).
        rewrite xsqrt_nn by auto. xs. set (q := sqrt ((v0 - v1) / j)).
        assert (Q0 : 0 <= q) by apply sqrt_pos.
        assert (QQ : q * q = (v0 - v1) / j) by (apply sqrt_sqrt; auto).
        assert (QJ : j * q * q = v0 - v1) by (rewrite Rmult_assoc, QQ; field; lra).
        exists (mkR v0 v1 (- j) (- j * q) q 0). split.
        -- unfold matches, r_L, r_T. cbn [ad_vStart ad_vEnd ad_jMax ad_aMax ad_dMax ad_dV1 ad_s1 ad_length ad_d1d3 ad_d2 ad_duration r_v0 r_v1 r_J r_A r_d1 r_d2].
           rewrite (rltb_if v0 v1). destruct (Rlt_dec v0 v1); [lra|].
           split; [reflexivity|]. split; [reflexivity|]. split; [exists j; split; [reflexivity|]; rewrite rltb_if; destruct (Rlt_dec v0 v1); [lra|reflexivity]|].
           split; [reflexivity|]. repeat split; f_equal; ring.
        -- unfold r_good. cbn [r_v0 r_v1 r_J r_A r_d1 r_d2]. split; auto. split; auto. split; auto. split; [lra|].
           split; [lra|]. split; [right; split; [lra|]; split; auto; split; [|assert (0 <= j * q) by (apply Rmult_le_pos; lra); lra]|].
           { apply Rnot_lt_le. intro C. assert (B : j * q * q < j * (- d / j) * (- d / j)) by lra.
             replace (j * (- d / j) * (- d / j)) with (- d * (- d / j)) in B by (field; lra).
             assert (C2 : - d / j < q) by (apply (Rmult_lt_reg_l j); [lra|]; replace (j * (- d / j)) with (- d) by (field; lra); lra).
             assert (0 < - d / j) by (apply Rmult_lt_0_compat; [lra|apply Rinv_0_lt_compat; lra]).
             assert (- d * (- d / j) < j * q * q) by (apply Rmult_gt_0_lt_compat; lra). lra. }
           split; [auto 6|]. discriminate.
      * xs. rewrite xdiv_nz by lra.
        set (q := - d / j). assert (QJ : j * q = - d) by (unfold q; field; lra).
        assert (Q0 : 0 < q) by (apply Rmult_lt_0_compat; [lra|apply Rinv_0_lt_compat; lra]).
        fold q in S. exists (mkR v0 v1 (- j) d q ((v1 - v0 + j * q * q) / d)). split.
        -- unfold matches, r_L, r_T. cbn [ad_vStart ad_vEnd ad_jMax ad_aMax ad_dMax ad_dV1 ad_s1 ad_length ad_d1d3 ad_d2 ad_duration r_v0 r_v1 r_J r_A r_d1 r_d2].
           rewrite (rltb_if v0 v1). destruct (Rlt_dec v0 v1); [lra|].
           split; [reflexivity|]. split; [reflexivity|]. split; [exists j; split; [reflexivity|]; rewrite rltb_if; destruct (Rlt_dec v0 v1); [lra|reflexivity]|].
           split; [reflexivity|]. repeat split; f_equal; ring.
        -- unfold r_good. cbn [r_v0 r_v1 r_J r_A r_d1 r_d2]. split; auto. split; auto. split; [lra|].
           split.
           { replace ((v1 - v0 + j * q * q) / d) with ((v0 - v1 - j * q * q) / - d) by (field; lra).
             apply Rmult_le_pos; [lra|apply Rlt_le, Rinv_0_lt_compat; lra]. }
           split; [field; lra|]. split; [right; lra|]. split; [intros _; split; [lra|auto]|]. discriminate.
Qed.

(** Slowing down takes at most as long as it would with the full deceleration
    reached and left at the full jerk. *)
Lemma slow_time o v0 v1 a d j r : 0 < a -> d < 0 -> 0 < j -> v1 <= v0 -> r_good o v0 v1 a d j r ->
  r_T r <= (v0 - v1) / - d + - d / j.
Proof.
  intros Ha Hd Hj Hv (E0 & E1 & D1 & D2 & EV & SG & SO & FO). destruct SG as [(V & _)|(_ & EJ & A0)]; [lra|].
  assert (K : 0 < - d / j) by (apply Rmult_lt_0_compat; [lra|apply Rinv_0_lt_compat; lra]).
  unfold r_T. destruct o.
  - destruct (FO eq_refl) as [X Y]. rewrite X, Y. destruct (Rlt_dec v0 v1); [lra|].
    replace ((v1 - v0) / d) with ((v0 - v1) / - d) by (field; lra). lra.
  - destruct (SO eq_refl) as [EA [Z|[Z|Z]]].
    + rewrite Z, EJ in *. replace (v0 - v1) with (j * r_d1 r * r_d1 r) by lra.
      apply Rmult_le_reg_r with (- d * j); [apply Rmult_lt_0_compat; lra|].
      replace ((j * r_d1 r * r_d1 r / - d + - d / j) * (- d * j)) with ((j * r_d1 r) * (j * r_d1 r) + d * d) by (field; lra).
      pose proof (Rle_0_sqr (j * r_d1 r + d)) as Q. unfold Rsqr in Q. lra.
    + lra.
    + rewrite Z, EJ in *. replace (r_d1 r) with (- d / j) by (apply Rmult_eq_reg_l with j; [|lra]; field_simplify; lra).
      assert (Q : (v0 - v1) / - d = - d / j + r_d2 r); [|lra].
      apply Rmult_eq_reg_r with (- d); [|lra]. replace ((v0 - v1) / - d * - d) with (v0 - v1) by (field; lra).
      assert (X : j * r_d1 r = - d) by lra. replace (v0 - v1) with (j * r_d1 r * r_d1 r - d * r_d2 r) by lra. rewrite X.
      replace (- d / j) with (r_d1 r) by (rewrite <- X; field; lra). ring.
Qed.

Lemma accdec_lemma o p v0 v1 a d j : 0 <= v0 -> 0 <= v1 -> 0 < a -> d < 0 -> 0 < j ->
  ad_vStart p = XF v0 -> ad_vEnd p = XF v1 -> ad_aMax p = XF a -> ad_dMax p = XF d -> ad_jMax p = XF j ->
  let q := ad_calculate x_num p o in
  exists T L s v acc, ad_duration q = XF T /\ ad_length q = XF L /\
    (forall t, ad_s x_num q (XF t) = XF (s t)) /\ (forall t, ad_v x_num q (XF t) = XF (v t)) /\
    (forall t, ad_a x_num q (XF t) = XF (acc t)) /\ ramp_spec o v0 v1 a d j T L s v acc.
Proof.
  intros V0 V1 Ha Hd Hj E0 E1 EA ED EJ q.
  destruct (calc_ramp o p v0 v1 a d j V0 V1 Ha Hd Hj E0 E1 EA ED EJ) as (r & M & G). fold q in M.
  exists (r_T r), (r_L r), (r_s r), (r_v r), (r_a r).
  split; [apply M|]. split; [apply M|]. split; [intro; apply matches_s; auto|].
  split; [intro; apply matches_v; auto|]. split; [intro; apply matches_a; auto|]. apply r_spec; auto.
Qed.

(** *** C29 *)
Lemma vTri_max_lemma v0 v1 a d L : 0 <= v0 -> 0 <= v1 -> 0 < a -> d < 0 -> 0 <= L ->
  exists v, vTri_static x_num (XF v0) (XF v1) (XF a) (XF d) (XF L) maximizeSpeed = XF v /\ 0 <= v /\
    (v * v - v0 * v0) / (2 * a) + (v1 * v1 - v * v) / (2 * d) = L /\
    (v1 * v1 <= v0 * v0 + 2 * a * L -> v1 <= v) /\ (v0 * v0 <= v1 * v1 - 2 * d * L -> v0 <= v).
Proof.
  intros H0 H1 Ha Hd HL. unfold vTri_static. xs. rewrite xdiv_nz by lra.
  set (x := (v1 * v1 * a - v0 * v0 * d - 2 * L * a * d) / (a - d)).
  assert (N : 0 <= v1 * v1 * a - v0 * v0 * d - 2 * L * a * d).
  { assert (0 <= v1 * v1 * a) by (apply Rmult_le_pos; [apply Rmult_le_pos|]; lra).
    assert (0 <= v0 * v0 * - d) by (apply Rmult_le_pos; [apply Rmult_le_pos|]; lra).
    assert (0 <= L * a * - d) by (apply Rmult_le_pos; [apply Rmult_le_pos|]; lra). lra. }
  assert (X0 : 0 <= x) by (apply Rmult_le_pos; [exact N|apply Rlt_le, Rinv_0_lt_compat; lra]).
  assert (XE : x * (a - d) = v1 * v1 * a - v0 * v0 * d - 2 * L * a * d) by (unfold x; field; lra).
  clearbody x. rewrite xsqrt_nn by auto.
  exists (sqrt x). split; auto. split; [apply sqrt_pos|]. rewrite sqrt_sqrt by auto. split.
  - replace L with ((x * (a - d) - v1 * v1 * a + v0 * v0 * d) / (- 2 * a * d)) by (rewrite XE; field; lra).
    field; lra.
  - split; intro HH.
    + rewrite <- (sqrt_square v1) by auto. apply sqrt_le_1_alt. apply (Rmult_le_reg_r (a - d)); [lra|]. rewrite XE.
      assert (- d * (v1 * v1) <= - d * (v0 * v0 + 2 * a * L)) by (apply Rmult_le_compat_l; lra). lra.
    + rewrite <- (sqrt_square v0) by auto. apply sqrt_le_1_alt. apply (Rmult_le_reg_r (a - d)); [lra|]. rewrite XE.
      assert (a * (v0 * v0) <= a * (v1 * v1 - 2 * d * L)) by (apply Rmult_le_compat_l; lra). lra.
Qed.

Lemma vTri_min_lemma v0 v1 a d L : 0 <= v0 -> 0 <= v1 -> 0 < a -> d < 0 -> 0 <= L ->
  exists v, vTri_static x_num (XF v0) (XF v1) (XF a) (XF d) (XF L) minimizeSpeed = XF v /\ 0 <= v /\
    ((v * v - v0 * v0) / (2 * d) + (v1 * v1 - v * v) / (2 * a) = L \/
     (v = 0 /\ (0 - v0 * v0) / (2 * d) + (v1 * v1 - 0) / (2 * a) < L)) /\
    (v1 * v1 <= v0 * v0 + 2 * a * L -> v <= v0) /\ (v0 * v0 <= v1 * v1 - 2 * d * L -> v <= v1).
Proof.
  intros H0 H1 Ha Hd HL. unfold vTri_static. xs. unfold xleb. xs.
  set (n := 2 * L * a * d - v1 * v1 * d + v0 * v0 * a).
  assert (EN : n = 2 * L * a * d - v1 * v1 * d + v0 * v0 * a) by reflexivity. clearbody n.
  assert (C : (rltb 0 n || xeqb (XF 0) (XF n) = true /\ 0 <= n) \/ (rltb 0 n || xeqb (XF 0) (XF n) = false /\ n < 0)).
  { cbn [xeqb]. unfold rltb, reqb. destruct (Rlt_dec 0 n); cbn; [left; split; [auto|lra]|].
    destruct (Req_EM_T 0 n); cbn; [left; split; [auto|lra]|right; split; [auto|lra]]. }
  destruct C as [[-> N]|[-> N]].
  - rewrite xdiv_nz by lra.
    set (x := n / (a - d)). assert (XE : x * (a - d) = n) by (unfold x; field; lra).
    assert (X0 : 0 <= x) by (apply Rmult_le_pos; [exact N|apply Rlt_le, Rinv_0_lt_compat; lra]). clearbody x.
    rewrite xsqrt_nn by auto. exists (sqrt x). split; auto. split; [apply sqrt_pos|]. rewrite sqrt_sqrt by auto. split; [left|split; intro HH].
    + replace L with ((x * (a - d) + v1 * v1 * d - v0 * v0 * a) / (2 * a * d)) by (rewrite XE, EN; field; lra). field; lra.
    + rewrite <- (sqrt_square v0) by auto. apply sqrt_le_1_alt. apply (Rmult_le_reg_r (a - d)); [lra|]. rewrite XE, EN.
      assert (- d * (v1 * v1) <= - d * (v0 * v0 + 2 * a * L)) by (apply Rmult_le_compat_l; lra). lra.
    + rewrite <- (sqrt_square v1) by auto. apply sqrt_le_1_alt. apply (Rmult_le_reg_r (a - d)); [lra|]. rewrite XE, EN.
      assert (a * (v0 * v0) <= a * (v1 * v1 - 2 * d * L)) by (apply Rmult_le_compat_l; lra). lra.
  - exists 0. split; auto. split; [lra|]. split; [right; split; auto|split; intros; lra].
    apply (Rmult_lt_reg_r (2 * a * - d)). { apply Rmult_lt_0_compat; lra. }
    replace (((0 - v0 * v0) / (2 * d) + (v1 * v1 - 0) / (2 * a)) * (2 * a * - d))
      with (v0 * v0 * a - v1 * v1 * d) by (field; lra). lra.
Qed.

Lemma vOut_lemma vIn a d L s dir : exists v, 
  vOut_static x_num (XF vIn) (XF a) (XF d) (XF L) s dir = XF v /\ 0 <= v /\
  let acc := match dir, s with
             | cd_forward, maximizeSpeed => a | cd_forward, minimizeSpeed => d
             | cd_reverse, maximizeSpeed => - d | cd_reverse, minimizeSpeed => - a end in
  (0 <= vIn * vIn + 2 * acc * L -> v * v = vIn * vIn + 2 * acc * L) /\
  (vIn * vIn + 2 * acc * L <= 0 -> v = 0).
Proof.
  unfold vOut_static.
  assert (G : forall acc, exists v,
    (if nltb x_num (nofZ x_num 0) (nadd x_num (nmul x_num (XF vIn) (XF vIn)) (nmul x_num (nmul x_num (nofZ x_num 2) (XF L)) (XF acc)))
     then nsqrt x_num (nadd x_num (nmul x_num (XF vIn) (XF vIn)) (nmul x_num (nmul x_num (nofZ x_num 2) (XF L)) (XF acc))) else nofZ x_num 0) = XF v
    /\ 0 <= v /\ (0 <= vIn * vIn + 2 * acc * L -> v * v = vIn * vIn + 2 * acc * L) /\ (vIn * vIn + 2 * acc * L <= 0 -> v = 0)).
  { intro acc. xs. rewrite rltb_if. destruct (Rlt_dec 0 (vIn * vIn + 2 * L * acc)) as [P|P].
    - rewrite xsqrt_nn by lra. eexists. split; [reflexivity|]. split; [apply sqrt_pos|]. rewrite sqrt_sqrt by lra. split; intros; lra.
    - exists 0. split; auto. split; [lra|]. split; intros; lra. }
  destruct dir, s; cbv zeta; xs.
  - apply (G a). - apply (G d).
  - destruct (G (- d)) as (v & E & X). exists v. split; auto. rewrite <- E. xs. replace (-1 * d) with (- d) by ring. reflexivity.
  - destruct (G (- a)) as (v & E & X). exists v. split; auto. rewrite <- E. xs. replace (-1 * a) with (- a) by ring. reflexivity.
Qed.
