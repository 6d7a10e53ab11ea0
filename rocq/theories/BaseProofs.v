Require Import List Arith NArith ZArith Bool Lia ZifyBool ZifyNat ZifyN.
From Verif Require Import Base.
Import ListNotations.
Open Scope N_scope.
Ltac Zify.zify_post_hook ::= Z.div_mod_to_equations.

Lemma upd_length {A} (l : list A) i x : length (upd l i x) = length l.
Proof. revert i; induction l; destruct i; simpl; auto. Qed.

Lemma nth_upd_eq {A} (d : A) l i x : (i < length l)%nat -> nth i (upd l i x) d = x.
Proof. revert i; induction l; destruct i; simpl; intros; try lia; auto. apply IHl; lia. Qed.

Lemma nth_upd_neq {A} (d : A) l i j x : i <> j -> nth j (upd l i x) d = nth j l d.
Proof. revert i j; induction l; destruct i, j; simpl; intros; try congruence; auto. Qed.

Lemma rset_length {A} (l : list A) i x : length (rset l i x) = length l.
Proof. apply upd_length. Qed.

Lemma rget_rset_eq {A} (d : A) l i x :
  i < N.of_nat (length l) -> rget d (rset l i x) i = x.
Proof. intro; unfold rget, rset; apply nth_upd_eq; lia. Qed.

Lemma rget_rset_neq {A} (d : A) l i j x : i <> j -> rget d (rset l i x) j = rget d l j.
Proof. intro; unfold rget, rset; apply nth_upd_neq; lia. Qed.

Lemma contents_length {A} (d : A) l cap head level :
  length (contents d l cap head level) = N.to_nat level.
Proof. unfold contents; now rewrite map_length, seq_length. Qed.

Lemma contents_0 {A} (d : A) l cap head : contents d l cap head 0 = [].
Proof. reflexivity. Qed.

Lemma nth_contents {A} (d : A) l cap head level i :
  (i < N.to_nat level)%nat ->
  nth i (contents d l cap head level) d = rget d l ((head + N.of_nat i) mod cap).
Proof.
  intro H. unfold contents.
  rewrite (nth_indep _ d (rget d l ((head + N.of_nat 0) mod cap))).
  2: now rewrite map_length, seq_length.
  rewrite (map_nth (fun i => rget d l ((head + N.of_nat i) mod cap))).
  now rewrite seq_nth.
Qed.

Lemma ring_index_neq cap head i j :
  0 < cap -> i < cap -> j < cap -> i <> j -> (head + i) mod cap <> (head + j) mod cap.
Proof.
  intros Hc Hi Hj Hn E. apply Hn.
  assert (H: forall a b, a < cap -> b < cap -> a <= b -> (head+a) mod cap = (head+b) mod cap -> a = b).
  { intros a b Ha Hb Hab Heq.
    pose proof (N.div_mod (head+a) cap ltac:(lia)) as Da.
    pose proof (N.div_mod (head+b) cap ltac:(lia)) as Db.
    rewrite Heq in Da.
    remember ((head+a)/cap) as qa. remember ((head+b)/cap) as qb. remember ((head+b) mod cap) as m.
    assert (b - a = cap * (qb - qa)).
    { rewrite N.mul_sub_distr_l. lia. }
    destruct (N.eq_dec (qb - qa) 0) as [E0|E0]; [rewrite E0 in *; lia|].
    assert (cap * 1 <= cap * (qb-qa)) by (apply N.mul_le_mono_l; lia). lia. }
  destruct (N.le_ge_cases i j); [ | symmetry]; apply H; auto.
Qed.

Lemma contents_push {A} (d : A) l cap head level x :
  N.of_nat (length l) = cap -> head < cap -> level < cap ->
  contents d (rset l ((head + level) mod cap) x) cap head (level + 1)
  = contents d l cap head level ++ [x].
Proof.
  intros Hl Hh Hlev. unfold contents.
  replace (N.to_nat (level + 1)) with (S (N.to_nat level)) by lia.
  rewrite seq_S, map_app. cbn [map]. f_equal.
  - apply map_ext_in. intros i Hi. apply in_seq in Hi.
    apply rget_rset_neq. apply ring_index_neq; lia.
  - f_equal. cbn [Nat.add]. rewrite N2Nat.id. apply rget_rset_eq.
    rewrite Hl. apply N.mod_lt. lia.
Qed.

Lemma contents_pop {A} (d : A) l cap head level :
  N.of_nat (length l) = cap -> head < cap -> 0 < level ->
  contents d l cap head level
  = rget d l head :: contents d l cap ((head + 1) mod cap) (level - 1).
Proof.
  intros Hl Hh Hlev. unfold contents.
  replace (N.to_nat level) with (S (N.to_nat (level - 1))) by lia.
  cbn [seq map]. f_equal.
  - f_equal. rewrite N.add_0_r. apply N.mod_small. lia.
  - rewrite <- seq_shift, map_map. apply map_ext. intro i. f_equal.
    rewrite N.add_mod_idemp_l by lia. f_equal. lia.
Qed.

Lemma w32_small n : n < two32 -> w32 n = n.
Proof. unfold w32, two32; intro; now apply N.mod_small. Qed.

Lemma nth_error_Some_nth {A} (l : list A) i x d : nth_error l i = Some x -> nth i l d = x.
Proof. revert i; induction l; destruct i; simpl; intros; try discriminate; [congruence|eauto]. Qed.
