(** Plans one after the other. *)
Require Import Reals Bool Lra.
From Verif Require Import NumR MotionModel ProfileSpec ProfileProofs PlanProofs.
Open Scope R_scope.

(** [f] up to time [b], [g] afterwards. *)
Definition join (b : R) (f g : R -> R) (t : R) : R := if rleb t b then f t else g t.
Lemma join_le b f g t : t <= b -> join b f g t = f t.
Proof. intro H. unfold join, rleb. destruct (Rle_dec t b); [auto|lra]. Qed.
Lemma join_gt b f g t : b < t -> join b f g t = g t.
Proof. intro H. unfold join, rleb. destruct (Rle_dec t b); [lra|auto]. Qed.
Lemma join_ge b f g t : f b = g b -> b <= t -> join b f g t = g t.
Proof. intros E [H|<-]; [apply join_gt; auto|]. rewrite join_le; [auto|lra]. Qed.

(** Two functions whose slopes meet in [b] have that slope there together. *)
Lemma join_dlim f g v u lo b hi : lo < b < hi -> f b = g b -> v b = u b ->
  (forall t, lo < t < b -> derivable_pt_lim f t (v t)) -> (forall t, lo <= t <= b -> continuity_pt f t) ->
  (forall t, b < t < hi -> derivable_pt_lim g t (u t)) -> (forall t, b <= t <= hi -> continuity_pt g t) ->
  continuity_pt v b -> continuity_pt u b ->
  derivable_pt_lim (join b f g) b (v b).
Proof.
  intros HB E EV DF CF DG CG CV CU eps He.
  destruct (CV (eps / 2) ltac:(lra)) as (d1 & P1 & D1). destruct (CU (eps / 2) ltac:(lra)) as (d2 & P2 & D2).
  assert (V1 : forall x, Rabs (x - b) < d1 -> v b - eps / 2 <= v x <= v b + eps / 2).
  { intros x Hx. destruct (Req_EM_T x b) as [->|NE]; [lra|].
    specialize (D1 x). cbn in D1. unfold R_dist, D_x, no_cond in D1. specialize (D1 (conj (conj I (not_eq_sym NE)) Hx)).
    apply Rabs_def2 in D1. lra. }
  assert (V2 : forall x, Rabs (x - b) < d2 -> v b - eps / 2 <= u x <= v b + eps / 2).
  { intros x Hx. destruct (Req_EM_T x b) as [->|NE]; [lra|].
    specialize (D2 x). cbn in D2. unfold R_dist, D_x, no_cond in D2. specialize (D2 (conj (conj I (not_eq_sym NE)) Hx)).
    apply Rabs_def2 in D2. lra. }
  assert (Hm : 0 < Rmin (Rmin d1 d2) (Rmin (b - lo) (hi - b))) by (repeat apply Rmin_pos; lra).
  exists (mkposreal _ Hm). intros h h0 Hh. cbn in Hh.
  pose proof (Rmin_l (Rmin d1 d2) (Rmin (b - lo) (hi - b))). pose proof (Rmin_r (Rmin d1 d2) (Rmin (b - lo) (hi - b))).
  pose proof (Rmin_l d1 d2). pose proof (Rmin_r d1 d2). pose proof (Rmin_l (b - lo) (hi - b)). pose proof (Rmin_r (b - lo) (hi - b)).
  apply Rabs_def2 in Hh. rewrite (join_le b f g b) by lra.
  assert (Q : (v b - eps / 2) <= (join b f g (b + h) - f b) / h <= (v b + eps / 2)); [|apply Rabs_def1; lra].
  destruct (Rtotal_order h 0) as [L|[Z|L]]; [|lra|].
  - rewrite join_le by lra.
    assert (K : (v b - eps / 2) * (b - (b + h)) <= f b - f (b + h) <= (v b + eps / 2) * (b - (b + h))).
    { apply (lip f v); [lra| | |].
      - intros; apply DF; lra. - intros; apply CF; lra. - intros t Ht. apply V1. apply Rabs_def1; lra. }
    replace ((f (b + h) - f b) / h) with ((f b - f (b + h)) / - h) by (field; lra).
    split.
    + apply Rmult_le_reg_r with (- h); [lra|]. unfold Rdiv at 2. rewrite Rmult_assoc, Rinv_l by lra. lra.
    + apply Rmult_le_reg_r with (- h); [lra|]. unfold Rdiv at 1. rewrite Rmult_assoc, Rinv_l by lra. lra.
  - rewrite join_gt, E by lra.
    assert (K : (v b - eps / 2) * (b + h - b) <= g (b + h) - g b <= (v b + eps / 2) * (b + h - b)).
    { apply (lip g u); [lra| | |].
      - intros; apply DG; lra. - intros; apply CG; lra. - intros t Ht. apply V2. apply Rabs_def1; lra. }
    split.
    + apply Rmult_le_reg_r with h; [lra|]. unfold Rdiv at 2. rewrite Rmult_assoc, Rinv_l by lra. lra.
    + apply Rmult_le_reg_r with h; [lra|]. unfold Rdiv at 1. rewrite Rmult_assoc, Rinv_l by lra. lra.
Qed.

Lemma join_cont f g lo b hi t : f b = g b -> (forall t, lo <= t <= b -> continuity_pt f t) -> (forall t, b <= t <= hi -> continuity_pt g t) ->
  lo <= b <= hi -> lo <= t <= hi -> continuity_pt (join b f g) t.
Proof.
  intros E CF CG HB HT. destruct (Rtotal_order t b) as [L|[->|L]].
  - apply (cont_local _ f _ (b - t)); [lra| |apply CF; lra]. intros x Hx. apply Rabs_def2 in Hx. apply join_le. lra.
  - apply (cont_glue (fun t => rleb t b)); auto; [apply CF|apply CG]; lra.
  - apply (cont_local _ g _ (t - b)); [lra| |apply CG; lra]. intros x Hx. apply Rabs_def2 in Hx. apply join_gt. lra.
Qed.

(** A bound on differences carries over. *)
Lemma join_diff (D : R -> R -> Prop) lo b hi : (forall x y, lo <= x <= y -> y <= b -> D x y) -> (forall x y, b <= x <= y -> y <= hi -> D x y) ->
  (forall x y, lo <= x <= b -> b <= y <= hi -> D x b -> D b y -> D x y) -> lo <= b <= hi ->
  forall x y, lo <= x <= y -> y <= hi -> D x y.
Proof.
  intros H1 H2 H3 HB x y Hx Hy. destruct (Rle_dec y b); [apply H1; lra|]. destruct (Rle_dec b x); [apply H2; lra|].
  apply H3; [lra|lra|apply H1; lra|apply H2; lra].
Qed.

Lemma plan_join v0 v1 v2 a d vm t0 s0 t1 s1 t2 s2 f v acc g u acc' :
  plan_spec v0 v1 a d vm t0 s0 t1 s1 f v acc -> plan_spec v1 v2 a d vm t1 s1 t2 s2 g u acc' ->
  plan_spec v0 v2 a d vm t0 s0 t2 s2 (join t1 f g) (join t1 v u) (join t1 acc acc').
Proof.
  intros [A1 [A2 A2'] [A3 A3'] A4 A5 A6 A7 A8 A9 A10] [B1 [B2 B2'] [B3 B3'] B4 B5 B6 B7 B8 B9 B10].
  assert (E : f t1 = g t1) by congruence. assert (EV : v t1 = u t1) by congruence.
  assert (JL : forall x, x <= t1 -> join t1 f g x = f x) by (intros; apply join_le; auto).
  assert (JG : forall x, t1 <= x -> join t1 f g x = g x) by (intros; apply join_ge; auto).
  assert (VL : forall x, x <= t1 -> join t1 v u x = v x) by (intros; apply join_le; auto).
  assert (VG : forall x, t1 <= x -> join t1 v u x = u x) by (intros; apply join_ge; auto).
  constructor.
  - lra.
  - rewrite JL, VL by lra. auto.
  - rewrite JG, VG by lra. auto.
  - intros t Ht. destruct (Rtotal_order t t1) as [L|[->|L]].
    + rewrite VL by lra. apply (dlim_local _ f _ _ (t1 - t)); [lra| |apply A4; lra]. intros x Hx. apply Rabs_def2 in Hx. apply JL. lra.
    + rewrite VL by lra. apply (join_dlim f g v u t0 t1 t2); auto; [apply A6; lra|apply B6; lra].
    + rewrite VG by lra. apply (dlim_local _ g _ _ (t - t1)); [lra| |apply B4; lra]. intros x Hx. apply Rabs_def2 in Hx. apply JG. lra.
  - intros t Ht. apply (join_cont f g t0 t1 t2); auto; lra.
  - intros t Ht. apply (join_cont v u t0 t1 t2); auto; lra.
  - intros t Ht. destruct (Rle_dec t t1); [rewrite VL by lra; apply A7; lra|rewrite VG by lra; apply B7; lra].
  - apply (join_diff (fun x y => d * (y - x) <= join t1 v u y - join t1 v u x <= a * (y - x)) t0 t1 t2); [| | |lra].
    + intros x y Hx Hy. rewrite !VL by lra. apply A8; lra.
    + intros x y Hx Hy. rewrite !VG by lra. apply B8; lra.
    + intros x y Hx Hy H1 H2. lra.
  - apply (join_diff (fun x y => 2 * d * (join t1 f g y - join t1 f g x) <= join t1 v u y * join t1 v u y - join t1 v u x * join t1 v u x
       <= 2 * a * (join t1 f g y - join t1 f g x)) t0 t1 t2); [| | |lra].
    + intros x y Hx Hy. rewrite !VL, !JL by lra. apply A9; lra.
    + intros x y Hx Hy. rewrite !VG, !JG by lra. apply B9; lra.
    + intros x y Hx Hy H1 H2. lra.
  - intros t Ht. destruct (Rle_dec t t1); [rewrite join_le by lra; apply A10; lra|rewrite join_gt by lra; apply B10; lra].
Qed.

(** The first part of a plan. *)
Lemma plan_cut v0 v1 a d vm t0 s0 t1 s1 s v acc tm : plan_spec v0 v1 a d vm t0 s0 t1 s1 s v acc -> t0 <= tm <= t1 ->
  plan_spec v0 (v tm) a d vm t0 s0 tm (s tm) s v acc.
Proof. intros [A1 A2 A3 A4 A5 A6 A7 A8 A9 A10] H. constructor; auto; intros; (apply A4 || apply A5 || apply A6 || apply A7 || apply A8 || apply A9 || apply A10 || lra); lra. Qed.

Lemma plan_cap v0 v1 a d vm vm' t0 s0 t1 s1 s v acc : plan_spec v0 v1 a d vm t0 s0 t1 s1 s v acc -> vm <= vm' ->
  plan_spec v0 v1 a d vm' t0 s0 t1 s1 s v acc.
Proof. intros [A1 A2 A3 A4 A5 A6 A7 A8 A9 A10] H. constructor; auto. intros t Ht. specialize (A7 t Ht). lra. Qed.

(** Standing still. *)
Lemma plan_rest a d vm t0 t1 s : 0 < a -> d < 0 -> 0 <= vm -> t0 <= t1 ->
  plan_spec 0 0 a d vm t0 s t1 s (fun _ => s) (fun _ => 0) (fun _ => 0).
Proof.
  intros Ha Hd Hv Ht. constructor; auto; intros; try lra.
  - apply (derivable_pt_lim_const s t).
  - apply cont_const.
  - apply cont_const.
  - assert (0 <= a * (y - x)) by (apply Rmult_le_pos; lra). assert (0 <= - d * (y - x)) by (apply Rmult_le_pos; lra). lra.
Qed.
