(** Proofs about gcode.cpp: what the parser does with the words of a block. *)
Require Import List Arith NArith ZArith Bool Lia ZifyBool ZifyNat ZifyN Permutation.
From Verif Require Import Base Num MotionModel GcodeModel GcodeSpec GBlockProofs.
Import ListNotations.
Open Scope N_scope.

Section P.
Context {D : Type} (K : num D) (pi : D).
Local Notation word := (@word D).
Local Notation block := (@block D).
Local Notation gstate := (@gstate D).
Local Notation gcode := (@gcode D).
Local Notation zero := (nofZ K 0).

(** ** Collisions *)

Definition tst (p : N -> N -> bool) (w : word) : bool := p (w_letter w) (w_int w).

Lemma cnt_filter p (ws : list word) : cnt p ws = N.of_nat (length (filter (tst p) ws)).
Proof.
  unfold cnt. replace (N.of_nat (length (filter (tst p) ws))) with (0 + N.of_nat (length (filter (tst p) ws))) by lia.
  generalize 0. induction ws as [|w ws IH]; intros a; cbn [fold_left filter length]; [lia|].
  rewrite IH. unfold tst at 2. destruct (p (w_letter w) (w_int w)); cbn [length]; unfold tst; lia.
Qed.

Lemma filter_first p (ws : list word) x r : filter p ws = x :: r ->
  exists a b, ws = a ++ x :: b /\ p x = true /\ filter p b = r.
Proof.
  induction ws as [|w ws IH]; cbn [filter]; [discriminate|].
  destruct (p w) eqn:E; intros H.
  - inversion H; subst. exists [], ws. auto.
  - destruct (IH H) as (a & b & -> & P & F). exists (w :: a), b. auto.
Qed.

Lemma cnt_two p (ws : list word) : 1 < cnt p ws <-> two_of (fun w => tst p w = true) ws.
Proof.
  rewrite cnt_filter. split.
  - intros H. destruct (filter (tst p) ws) as [|x [|y r]] eqn:E; cbn [length] in H; try lia.
    destruct (filter_first _ _ _ _ E) as (a & b & -> & P & F).
    destruct (filter_first _ _ _ _ F) as (a' & b' & -> & P' & _).
    exists a, x, a', y, b'. auto.
  - intros (a & x & b & y & c & -> & P & P').
    rewrite filter_app. cbn [filter]. rewrite P, filter_app. cbn [filter]. rewrite P'.
    rewrite app_length. cbn [length]. rewrite app_length. cbn [length]. lia.
Qed.

Lemma cnt_pos p (ws : list word) : 0 < cnt p ws <-> exists w, In w ws /\ tst p w = true.
Proof.
  rewrite cnt_filter. split.
  - intros H. destruct (filter (tst p) ws) as [|x r] eqn:E; cbn [length] in H; [lia|].
    exists x. apply filter_In. rewrite E. now left.
  - intros (w & I). apply filter_In in I. destruct (filter (tst p) ws); [destruct I|cbn [length]; lia].
Qed.

Lemma two_of_iff (P Q : word -> Prop) ws : (forall w, P w <-> Q w) -> two_of P ws <-> two_of Q ws.
Proof. intros H. split; intros (a & x & b & y & c & E & X & Y); exists a, x, b, y, c; firstorder. Qed.

Lemma key_in_spec T l n : key_in T l n = true <-> In (l, n) T.
Proof.
  unfold key_in. rewrite existsb_exists. split.
  - intros ([l' n'] & I & E). cbn [fst snd] in E. apply andb_true_iff in E.
    destruct E as [A B]. apply N.eqb_eq in A, B. now subst.
  - intros I. exists (l, n). cbn [fst snd]. now rewrite !N.eqb_refl.
Qed.
Lemma let_in_spec T l n : let_in T l n = true <-> In l T.
Proof.
  unfold let_in. rewrite existsb_exists. split.
  - intros (l' & I & E). apply N.eqb_eq in E. now subst.
  - intros I. exists l. now rewrite N.eqb_refl.
Qed.

Lemma existsb_nth (f : N -> bool) l : existsb f l = true <-> exists i, (i < length l)%nat /\ f (nth i l 0) = true.
Proof.
  rewrite existsb_exists. split.
  - intros (x & I & E). destruct (In_nth _ _ 0 I) as (i & L & <-). eauto.
  - intros (i & L & E). exists (nth i l 0). split; [now apply nth_In|exact E].
Qed.

Lemma group_violation (b : block) : counted b -> groupViolation b = true <-> group_collision (b_words b).
Proof.
  intros (L1 & _ & CG & _). unfold groupViolation, group_collision. rewrite existsb_nth, L1. split.
  - intros (i & Li & H).
    assert (exists g, mg_index g = i) as (g & <-).
    { do 11 (destruct i as [|i]; [first [now exists MgGroup0|now exists MgMotion|now exists MgPlane|now exists MgDistance
        |now exists MgSpindle|now exists MgUnit|now exists MgFeedRate|now exists MgCoordinateSet|now exists MgCoolantFlood
        |now exists MgCoolantMist|now exists MgManualOverride]|]). lia. }
    exists g. rewrite CG in H. apply N.ltb_lt, cnt_two in H.
    revert H. apply two_of_iff. intros w. unfold tst, in_group. now rewrite key_in_spec.
  - intros (g & H). exists (mg_index g). split; [destruct g; cbn; lia|]. rewrite CG.
    apply N.ltb_lt, cnt_two. revert H. apply two_of_iff. intros w. unfold tst, in_group. now rewrite key_in_spec.
Qed.

Lemma letter_violation (b : block) : counted b -> letterViolation b = true <-> letter_collision (b_words b).
Proof.
  intros (_ & L2 & _ & CL & CT & _). unfold letterViolation, letter_collision. rewrite existsb_nth, L2. split.
  - intros (i & Li & H).
    assert (i = lt_index LtT \/ exists l g, In (l, g) value_letters /\ lt_index g = i) as [->|(l & g & I & <-)].
    { do 12 (destruct i as [|i]; [right; unfold value_letters;
        first [ exists cX, LtX; split; [cbn; tauto|reflexivity] | exists cY, LtY; split; [cbn; tauto|reflexivity]
              | exists cZ, LtZ; split; [cbn; tauto|reflexivity] | exists cI, LtI; split; [cbn; tauto|reflexivity]
              | exists cJ, LtJ; split; [cbn; tauto|reflexivity] | exists cK, LtK; split; [cbn; tauto|reflexivity]
              | exists cL, LtL; split; [cbn; tauto|reflexivity] | exists cF, LtF; split; [cbn; tauto|reflexivity]
              | exists cN, LtN; split; [cbn; tauto|reflexivity] | exists cP, LtP; split; [cbn; tauto|reflexivity]
              | exists cR, LtR; split; [cbn; tauto|reflexivity] | exists cS, LtS; split; [cbn; tauto|reflexivity] ]|]).
      destruct i as [|i]; [now left|lia]. }
    + rewrite CT in H. discriminate.
    + exists l, g. split; [exact I|]. rewrite (CL _ _ I) in H. apply N.ltb_lt, cnt_two in H.
      revert H. apply two_of_iff. intros w. unfold tst. rewrite let_in_spec. cbn. intuition.
  - intros (l & g & I & H). exists (lt_index g). split; [destruct g; cbn; lia|]. rewrite (CL _ _ I).
    apply N.ltb_lt, cnt_two. revert H. apply two_of_iff. intros w. unfold tst. rewrite let_in_spec. cbn. intuition.
Qed.

(** C37 *)
Lemma collision_lemma b s r e m : from_line K b ->
  (group_collision (b_words b) ->
     parseBlock K pi (mkGC b s r e) m = Ok (mkGC b s RError ModalGroupCollision, sm_with_type mt_none m)) /\
  (~ group_collision (b_words b) -> letter_collision (b_words b) ->
     parseBlock K pi (mkGC b s r e) m = Ok (mkGC b s RError ValueWordCollision, sm_with_type mt_none m)).
Proof.
  intros L. pose proof (counted_line K b L) as C. unfold parseBlock. cbn [g_block set_result].
  split.
  - intros H. apply (group_violation b C) in H. rewrite H. reflexivity.
  - intros NG H. apply (letter_violation b C) in H. rewrite H.
    destruct (groupViolation b) eqn:E; [apply (group_violation b C) in E; contradiction|reflexivity].
Qed.

(** ** Searching and removing *)

Lemma search_spec (p : word -> bool) ws i0 :
  match search_from p ws i0 with
  | Some i => exists w, (i0 <= i)%nat /\ nth_error ws (i - i0) = Some w /\ p w = true
  | None => forall w, In w ws -> p w = false
  end.
Proof.
  revert i0. induction ws as [|w ws IH]; intros i0; cbn [search_from]; [intros w []|].
  destruct (p w) eqn:E.
  - exists w. rewrite Nat.sub_diag. auto.
  - specialize (IH (S i0)). destruct (search_from p ws (S i0)) as [i|].
    + destruct IH as (w' & L & N & P). exists w'. split; [lia|]. split; [|exact P].
      replace (i - i0)%nat with (S (i - S i0)) by lia. exact N.
    + intros w' [<-|I]; auto.
Qed.

Lemma remove_perm (ws : list word) i w : nth_error ws i = Some w -> Permutation ws (w :: remove_nth ws i).
Proof.
  intros H. assert (L : (i < length ws)%nat) by (apply nth_error_Some; congruence).
  unfold remove_nth. replace (i <? length ws)%nat with true by (symmetry; now apply Nat.ltb_lt).
  destruct ws as [|x ws] using rev_ind; [cbn in L; lia|]. clear IHws.
  rewrite rev_app_distr. cbn [rev app].
  rewrite app_length in L. cbn [length] in L.
  destruct (1 <? length (ws ++ [x]))%nat eqn:E1.
  - destruct (Nat.eq_dec i (length ws)) as [->|N].
    + rewrite nth_error_app2, Nat.sub_diag in H by lia. cbn in H. inversion H; subst.
      assert (U : upd (ws ++ [w]) (length ws) w = ws ++ [w]).
      { clear. induction ws as [|y ws IH]; cbn; [reflexivity|now rewrite IH]. }
      rewrite U, removelast_last. symmetry. apply Permutation_cons_append.
    + assert (L' : (i < length ws)%nat) by lia. rewrite nth_error_app1 in H by lia.
      assert (U : upd (ws ++ [x]) i x = upd ws i x ++ [x]).
      { clear -L'. revert i L'. induction ws as [|y ws IH]; intros [|i] L; cbn in *; try lia; [reflexivity|]. rewrite IH; [reflexivity|lia]. }
      rewrite U, removelast_last. etransitivity; [symmetry; apply Permutation_cons_append|].
      clear -H. revert i H. induction ws as [|y ws IH]; intros [|i] H; cbn in *; try discriminate.
      * inversion H; subst. apply perm_swap.
      * etransitivity; [apply perm_swap|]. etransitivity; [|apply perm_swap]. constructor. now apply IH.
  - rewrite app_length in E1. cbn [length] in E1. destruct ws; [|cbn [length] in E1; lia].
    cbn [app removelast]. destruct i; [|cbn in L; lia]. cbn in H. inversion H; subst. reflexivity.
Qed.

Definition W (c : gcode) : list word := b_words (g_block c).

(** The words of [c'] are those of [c] except some whose key satisfies [R];
    the counters are unchanged. *)
Definition keeps (R : N -> N -> bool) (c c' : gcode) : Prop :=
  incl (W c') (W c) /\
  (forall w, In w (W c) -> R (w_letter w) (w_int w) = false -> In w (W c')) /\
  (b_nAxis (g_block c') = b_nAxis (g_block c) /\ b_nOffset (g_block c') = b_nOffset (g_block c) /\
   b_nRadius (g_block c') = b_nRadius (g_block c)).

Lemma keeps_refl R c : keeps R c c.
Proof. split; [apply incl_refl|]. auto. Qed.
Lemma keeps_eq R c c' : g_block c' = g_block c -> keeps R c c'.
Proof. intros E. unfold keeps, W. rewrite E. split; [apply incl_refl|]. auto. Qed.
Lemma keeps_weak (R R' : N -> N -> bool) c c' : (forall l n, R l n = true -> R' l n = true) -> keeps R c c' -> keeps R' c c'.
Proof.
  intros H (A & B & C). split; [exact A|]. split; [|exact C].
  intros w I F. apply B; [exact I|]. destruct (R (w_letter w) (w_int w)) eqn:E; [|reflexivity].
  apply H in E. congruence.
Qed.
Definition ror (R R' : N -> N -> bool) (l n : N) : bool := R l n || R' l n.
Lemma keeps_trans R R' c c' c'' : keeps R c c' -> keeps R' c' c'' -> keeps (ror R R') c c''.
Proof.
  intros (A & B & C1 & C2 & C3) (A' & B' & C1' & C2' & C3'). split; [eapply incl_tran; eauto|]. split; [|repeat split; congruence].
  intros w I F. unfold ror in F. apply orb_false_iff in F. destruct F. auto.
Qed.

Lemma keeps_remove R c i w : nth_error (W c) i = Some w -> R (w_letter w) (w_int w) = true ->
  keeps R c (g_remove i c).
Proof.
  intros H HR. pose proof (remove_perm _ _ _ H) as P. unfold keeps, W, g_remove, on_block, removeWord, with_words.
  cbn [g_block b_words b_nAxis b_nOffset b_nRadius]. fold (W c). split.
  - intros x I. apply (Permutation_in _ (Permutation_sym P)). now right.
  - split; [|auto]. intros x I F. apply (Permutation_in _ P) in I. destruct I as [->|I]; [congruence|exact I].
Qed.

Lemma has_keeps R c c' l n : keeps R c c' -> R l n = false -> has (W c') l n <-> has (W c) l n.
Proof.
  intros (A & B & _) F. split; intros (w & I & <- & <-); exists w; auto.
Qed.
Lemma letter_keeps R c c' l : keeps R c c' -> (forall n, R l n = false) -> has_letter (W c') l <-> has_letter (W c) l.
Proof. intros (A & B & _) F. split; intros (w & I & <-); exists w; auto. Qed.
Lemma value_keeps R c c' l x : keeps R c c' -> (forall n, R l n = false) -> has_value (W c') l x <-> has_value (W c) l x.
Proof. intros (A & B & _) F. split; intros (w & I & <- & <-); exists w; auto. Qed.

Lemma search2_spec c l n :
  match search2 (g_block c) l n with
  | Some i => exists w, nth_error (W c) i = Some w /\ w_letter w = l /\ w_int w = n
  | None => ~ has (W c) l n
  end.
Proof.
  unfold search2. fold (W c).
  pose proof (search_spec (fun w => (w_letter w =? l) && (w_int w =? n)) (W c) 0) as H.
  destruct (search_from _ _ _) as [i|].
  - destruct H as (w & _ & N & P). rewrite Nat.sub_0_r in N. exists w. split; [exact N|].
    apply andb_true_iff in P. destruct P as [P Q]. now apply N.eqb_eq in P, Q.
  - intros (w & I & A & B). specialize (H w I). rewrite A, B, !N.eqb_refl in H. discriminate.
Qed.
Lemma search1_spec c l :
  match search1 (g_block c) l with
  | Some i => exists w, nth_error (W c) i = Some w /\ w_letter w = l
  | None => ~ has_letter (W c) l
  end.
Proof.
  unfold search1. fold (W c).
  pose proof (search_spec (fun w => w_letter w =? l) (W c) 0) as H.
  destruct (search_from _ _ _) as [i|].
  - destruct H as (w & _ & N & P). rewrite Nat.sub_0_r in N. exists w. split; [exact N|]. now apply N.eqb_eq in P.
  - intros (w & I & A). specialize (H w I). rewrite A, N.eqb_refl in H. discriminate.
Qed.
Lemma search2_has c l n i : search2 (g_block c) l n = Some i -> has (W c) l n.
Proof. intros E. pose proof (search2_spec c l n) as H. rewrite E in H. destruct H as (w & N & A & B). exists w. split; [eapply nth_error_In; eauto|auto]. Qed.
Lemma search2_none c l n : search2 (g_block c) l n = None -> ~ has (W c) l n.
Proof. intros E. pose proof (search2_spec c l n) as H. rewrite E in H. exact H. Qed.

(** keys of a table *)
Definition keys {V} (T : list (N * N * V)) : N -> N -> bool := key_in (map fst T).

Lemma first_of_spec c opts :
  keeps (keys opts) c (first_of c opts) /\
  ((exists l n f, In (l, n, f) opts /\ has (W c) l n /\ g_st (first_of c opts) = f (g_st c)) \/
   (first_of c opts = c /\ forall l n f, In (l, n, f) opts -> ~ has (W c) l n)) /\
  g_res (first_of c opts) = g_res c /\ g_err (first_of c opts) = g_err c.
Proof.
  induction opts as [|[[l n] f] opts IH]; cbn [first_of].
  - split; [apply keeps_refl|]. split; [right; split; [reflexivity|intros ? ? ? []]|auto].
  - pose proof (search2_spec c l n) as H. destruct (search2 (g_block c) l n) as [i|].
    + destruct H as (w & N & A & B).
      split; [|split; [left; exists l, n, f; split; [now left|]; split; [exists w; split; [eapply nth_error_In; eauto|auto]|reflexivity]|auto]].
      change (keeps (keys ((l, n, f) :: opts)) c (g_remove i (on_state f c))).
      eapply keeps_weak; [intros ? ? X; exact X|].
      assert (X : keeps (keys ((l, n, f) :: opts)) (on_state f c) (g_remove i (on_state f c))).
      { eapply keeps_remove; [exact N|]. unfold keys. cbn [map fst]. apply key_in_spec. rewrite A, B. now left. }
      exact X.
    + destruct IH as (K1 & K2 & K3). split.
      * eapply keeps_weak; [|exact K1]. intros l' n' X. unfold keys in *. apply key_in_spec in X. apply key_in_spec. now right.
      * split; [|exact K3]. destruct K2 as [(l' & n' & f' & I & R)|(E & N)].
        -- left. exists l', n', f'. split; [now right|exact R].
        -- right. split; [exact E|]. intros l' n' f' [X|I]; [inversion X; subst; exact H|eauto].
Qed.

(** A mode-setting chain makes field [pr] follow the table. *)
Definition tab {V} (st : V -> gstate -> gstate) (T : list (N * N * V)) : list (N * N * (gstate -> gstate)) :=
  map (fun x => (fst x, st (snd x))) T.

Lemma first_of_follows {V} (pr : gstate -> V) (st : V -> gstate -> gstate) T c :
  (forall v s, pr (st v s) = v) -> follows T (W c) (pr (g_st c)) (pr (g_st (first_of c (tab st T)))).
Proof.
  intros H. destruct (first_of_spec c (tab st T)) as (_ & [(l & n & f & I & Hs & E)|(E & N)] & _).
  - unfold tab in I. apply in_map_iff in I. destruct I as ([[l' n'] v] & X & I). inversion X; subst.
    left. exists l, n. rewrite E, H. auto.
  - right. rewrite E. split; [reflexivity|]. intros l n v I. apply (N l n (st v)).
    unfold tab. apply in_map_iff. exists (l, n, v). auto.
Qed.
Lemma first_of_same {V} (pr : gstate -> V) opts c :
  (forall l n f s, In (l, n, f) opts -> pr (f s) = pr s) -> pr (g_st (first_of c opts)) = pr (g_st c).
Proof.
  intros H. destruct (first_of_spec c opts) as (_ & [(l & n & f & I & Hs & E)|(E & N)] & _).
  - rewrite E. eauto.
  - now rewrite E.
Qed.
Lemma tab_keys {V} (st : V -> gstate -> gstate) T l n : keys (tab st T) l n = keys T l n.
Proof. unfold keys, tab. rewrite map_map. f_equal. Qed.

Lemma follows_keeps {V} (T : list (N * N * V)) R c c' old new :
  keeps R c c' -> forallb (fun k => negb (R (fst (fst k)) (snd (fst k)))) T = true ->
  follows T (W c') old new -> follows T (W c) old new.
Proof.
  intros Kp F. rewrite forallb_forall in F.
  assert (X : forall l n v, In (l, n, v) T -> R l n = false).
  { intros l n v I. specialize (F _ I). cbn [fst snd] in F. now apply negb_true_iff. }
  intros [(l & n & I & H)|(E & N)].
  - left. exists l, n. split; [exact I|]. apply (has_keeps R c c' l n Kp); eauto.
  - right. split; [exact E|]. intros l n v I H. apply (N l n v I). apply (has_keeps R c c' l n Kp); eauto.
Qed.

(** ** Stages of the head *)

Lemma letter_st_ne l l' x (s : gstate) : l <> l' -> letter K (st_letter l' x s) l = letter K s l.
Proof.
  intros H. unfold letter, nthZ. cbn [s_letters st_letter]. apply nth_upd_ne. destruct l, l'; cbn; congruence.
Qed.
Lemma letter_st_eq l x (s : gstate) : length (s_letters s) = 13%nat -> letter K (st_letter l x s) l = x.
Proof. intros H. unfold letter, nthZ. cbn [s_letters st_letter]. apply nth_upd_eq. rewrite H. destruct l; cbn; lia. Qed.

Lemma get_letter_spec ch l c :
  keeps (let_in [ch]) c (get_letter K ch l c) /\
  ((exists x, has_value (W c) ch x /\ g_st (get_letter K ch l c) = st_letter l x (g_st c)) \/
   (get_letter K ch l c = c /\ ~ has_letter (W c) ch)).
Proof.
  unfold get_letter. pose proof (search1_spec c ch) as H. destruct (search1 (g_block c) ch) as [i|].
  - destruct H as (w & N & E). split.
    + apply (keeps_remove (let_in [ch]) (on_state (st_letter l (word_number K c i)) c) i w); [exact N|].
      apply let_in_spec. now left.
    + left. exists (w_number w). split; [exists w; split; [eapply nth_error_In; eauto|auto]|].
      cbn [g_st g_remove on_block on_state]. unfold word_number. unfold W in N. rewrite N. reflexivity.
  - split; [apply keeps_refl|]. right. auto.
Qed.
Lemma get_letter_same {V} (pr : gstate -> V) ch l c :
  (forall x s, pr (st_letter l x s) = pr s) -> pr (g_st (get_letter K ch l c)) = pr (g_st c).
Proof. intros H. destruct (get_letter_spec ch l c) as (_ & [(x & _ & ->)|(-> & _)]); auto. Qed.

Lemma has_letter_value (ws : list word) l : has_letter ws l <-> exists x, has_value ws l x.
Proof. split; [intros (w & I & E); exists (w_number w), w; auto|intros (x & w & I & E & _); exists w; auto]. Qed.

Definition r_axis := let_in [cX; cY; cZ; cI; cJ; cK; cR].

Lemma axis_words_keeps c : keeps r_axis c (getAxisOffsetRadiusWords K c).
Proof.
  unfold getAxisOffsetRadiusWords.
  assert (X : forall ch l c, In ch [cX; cY; cZ; cI; cJ; cK; cR] -> keeps r_axis c (get_letter K ch l c)).
  { intros ch l c0 I. eapply keeps_weak; [|apply get_letter_spec].
    intros l' n' E. apply let_in_spec in E. destruct E as [<-|[]]. now apply let_in_spec. }
  assert (T : forall c c' c'', keeps r_axis c c' -> keeps r_axis c' c'' -> keeps r_axis c c'').
  { intros a b d A B. eapply keeps_weak; [|eapply keeps_trans; eauto].
    intros l n E. unfold ror in E. apply orb_true_iff in E. tauto. }
  set (c1 := if hasAxis (g_block c) then _ else c).
  assert (K1 : keeps r_axis c c1).
  { unfold c1. destruct (hasAxis (g_block c)); [|apply keeps_refl].
    repeat (eapply T; [|apply X; cbn; tauto]). apply keeps_refl. }
  set (c2 := if hasOffset (g_block c1) then _ else c1).
  assert (K2 : keeps r_axis c c2).
  { unfold c2. destruct (hasOffset (g_block c1)); [|exact K1].
    repeat (eapply T; [|apply X; cbn; tauto]). exact K1. }
  destruct (hasRadius (g_block c2)); [|exact K2]. eapply T; [exact K2|apply X; cbn; tauto].
Qed.

Lemma axis_words_same {V} (pr : gstate -> V) c :
  (forall l x s, In l [LtX; LtY; LtZ; LtI; LtJ; LtK; LtR] -> pr (st_letter l x s) = pr s) ->
  pr (g_st (getAxisOffsetRadiusWords K c)) = pr (g_st c).
Proof.
  intros H. unfold getAxisOffsetRadiusWords.
  repeat match goal with
  | |- context[if ?x then _ else _] => destruct x
  end; rewrite ?get_letter_same by (intros; apply H; cbn; tauto); reflexivity.
Qed.

(** The counters agree with the words of the block as it came from the line:
    a letter occurs only if the counter of its kind is positive. *)
Definition gated (c : gcode) : Prop :=
  (forall l, In l [cX; cY; cZ] -> has_letter (W c) l -> hasAxis (g_block c) = true) /\
  (forall l, In l [cI; cJ; cK] -> has_letter (W c) l -> hasOffset (g_block c) = true) /\
  (has_letter (W c) cR -> hasRadius (g_block c) = true).

Lemma counted_gated c : counted (g_block c) -> gated c.
Proof.
  intros (_ & _ & _ & _ & _ & CA & CO & CR). unfold gated, hasAxis, hasOffset, hasRadius, W. rewrite CA, CO, CR.
  repeat split; [intros l I (w & Iw & E)|intros l I (w & Iw & E)|intros (w & Iw & E)];
    apply N.ltb_lt, cnt_pos; exists w; (split; [exact Iw|]); unfold tst; apply let_in_spec; rewrite E; auto. now left.
Qed.

Lemma hasX_keeps R c c' : keeps R c c' ->
  hasAxis (g_block c') = hasAxis (g_block c) /\ hasOffset (g_block c') = hasOffset (g_block c) /\
  hasRadius (g_block c') = hasRadius (g_block c).
Proof. intros (_ & _ & A & B & C). unfold hasAxis, hasOffset, hasRadius. now rewrite A, B, C. Qed.

Lemma get_letter_len ch l c : length (s_letters (g_st (get_letter K ch l c))) = length (s_letters (g_st c)).
Proof. apply (get_letter_same (fun s => length (s_letters s))). intros. cbn. apply length_upd. Qed.

Lemma get_letter_follows ch l c : length (s_letters (g_st c)) = 13%nat ->
  follows_letter ch (W c) (letter K (g_st c) l) (letter K (g_st (get_letter K ch l c)) l).
Proof.
  intros L. destruct (get_letter_spec ch l c) as (_ & [(x & H & ->)|(-> & H)]).
  - left. rewrite letter_st_eq; auto.
  - right. auto.
Qed.

Lemma follows_letter_keeps R c c' l old new : keeps R c c' -> (forall n, R l n = false) ->
  follows_letter l (W c') old new -> follows_letter l (W c) old new.
Proof.
  intros Kp F [H|(E & H)].
  - left. eapply (value_keeps R c c'); eauto.
  - right. split; [exact E|]. intros X. apply H. eapply (letter_keeps R c c'); eauto.
Qed.

Ltac letne := intros; apply letter_st_ne; discriminate.

Lemma axis_words_follows c ch l : gated c -> length (s_letters (g_st c)) = 13%nat ->
  In (ch, l) [(cX, LtX); (cY, LtY); (cZ, LtZ); (cI, LtI); (cJ, LtJ); (cK, LtK); (cR, LtR)] ->
  follows_letter ch (W c) (letter K (g_st c) l) (letter K (g_st (getAxisOffsetRadiusWords K c)) l).
Proof.
  intros (GA & GO & GR) L I. unfold getAxisOffsetRadiusWords.
  assert (T3 : forall a la b lb d ld (c0 : gcode), keeps (let_in [a; b; d]) c0 (get_letter K d ld (get_letter K b lb (get_letter K a la c0)))).
  { intros a la b lb d ld c0.
    eapply keeps_weak; [|eapply keeps_trans; [eapply keeps_trans|]; apply get_letter_spec].
    intros l0 n0 E. unfold ror in E. rewrite !orb_true_iff in E. rewrite !let_in_spec in *. cbn in *. intuition. }
  set (c1 := if hasAxis (g_block c) then _ else c).
  assert (K1 : keeps (let_in [cX; cY; cZ]) c c1).
  { unfold c1. destruct (hasAxis (g_block c)); [apply T3|apply keeps_refl]. }
  assert (L1 : length (s_letters (g_st c1)) = 13%nat).
  { unfold c1. destruct (hasAxis (g_block c)); [rewrite !get_letter_len|]; exact L. }
  destruct (hasX_keeps _ _ _ K1) as (_ & HO1 & HR1).
  set (c2 := if hasOffset (g_block c1) then _ else c1).
  assert (K2 : keeps (let_in [cI; cJ; cK]) c1 c2).
  { unfold c2. destruct (hasOffset (g_block c1)); [apply T3|apply keeps_refl]. }
  assert (L2 : length (s_letters (g_st c2)) = 13%nat).
  { unfold c2. destruct (hasOffset (g_block c1)); [rewrite !get_letter_len|]; exact L1. }
  destruct (hasX_keeps _ _ _ K2) as (_ & _ & HR2).
  assert (FR : forall l0, In l0 [LtX; LtY; LtZ] ->
     letter K (g_st (if hasRadius (g_block c2) then get_letter K cR LtR c2 else c2)) l0 = letter K (g_st c1) l0).
  { intros l0 I0. cbn [In] in I0. destruct (hasRadius (g_block c2)); unfold c2; destruct (hasOffset (g_block c1));
    destruct I0 as [<-|[<-|[<-|[]]]];
    repeat (rewrite (get_letter_same (fun s => letter K s _)) by letne); reflexivity. }
  assert (FO : forall l0, In l0 [LtI; LtJ; LtK] ->
     letter K (g_st (if hasRadius (g_block c2) then get_letter K cR LtR c2 else c2)) l0 = letter K (g_st c2) l0).
  { intros l0 I0. cbn [In] in I0. destruct (hasRadius (g_block c2));
    destruct I0 as [<-|[<-|[<-|[]]]];
    repeat (rewrite (get_letter_same (fun s => letter K s _)) by letne); reflexivity. }
  assert (F1 : forall l0, In l0 [LtI; LtJ; LtK; LtR] -> letter K (g_st c1) l0 = letter K (g_st c) l0).
  { intros l0 I0. cbn [In] in I0. unfold c1. destruct (hasAxis (g_block c));
    destruct I0 as [<-|[<-|[<-|[<-|[]]]]];
    repeat (rewrite (get_letter_same (fun s => letter K s _)) by letne); reflexivity. }
  assert (F2 : letter K (g_st c2) LtR = letter K (g_st c1) LtR).
  { unfold c2. destruct (hasOffset (g_block c1));
    repeat (rewrite (get_letter_same (fun s => letter K s _)) by letne); reflexivity. }
  cbn [In] in I. destruct I as [I|[I|[I|I]]].
  1-3: inversion I; subst ch l; rewrite FR by (cbn; tauto); unfold c1; destruct (hasAxis (g_block c)) eqn:E;
      [|right; split; [reflexivity|]; intros X; pose proof (fun H => GA _ H X) as Y; pose proof (Y ltac:(cbn; tauto)) as Y2; congruence].
  - repeat (rewrite (get_letter_same (fun s => letter K s LtX)) by letne). now apply get_letter_follows.
  - rewrite (get_letter_same (fun s => letter K s LtY)) by letne.
    rewrite <- (get_letter_same (fun s => letter K s LtY) cX LtX c) by letne.
    eapply (follows_letter_keeps (let_in [cX])); [apply get_letter_spec|reflexivity|].
    apply get_letter_follows. now rewrite get_letter_len.
  - rewrite <- (get_letter_same (fun s => letter K s LtZ) cX LtX c) by letne.
    rewrite <- (get_letter_same (fun s => letter K s LtZ) cY LtY (get_letter K cX LtX c)) by letne.
    eapply (follows_letter_keeps (ror (let_in [cX]) (let_in [cY]))); [eapply keeps_trans; apply get_letter_spec|reflexivity|].
    apply get_letter_follows. now rewrite !get_letter_len.
  - destruct I as [I|[I|[I|I]]].
    1-3: inversion I; subst ch l; rewrite FO by (cbn; tauto);
      eapply (follows_letter_keeps (let_in [cX; cY; cZ])); [exact K1|reflexivity|];
      rewrite <- F1 by (cbn; tauto);
      unfold c2; destruct (hasOffset (g_block c1)) eqn:E;
      [|right; split; [reflexivity|]; intros X; rewrite HO1 in E; apply (letter_keeps _ _ _ _ K1) in X; [|reflexivity];
        pose proof (fun H => GO _ H X) as Y; pose proof (Y ltac:(cbn; tauto)) as Y2; congruence].
    + repeat (rewrite (get_letter_same (fun s => letter K s LtI)) by letne). now apply get_letter_follows.
    + rewrite (get_letter_same (fun s => letter K s LtJ)) by letne.
      rewrite <- (get_letter_same (fun s => letter K s LtJ) cI LtI c1) by letne.
      eapply (follows_letter_keeps (let_in [cI])); [apply get_letter_spec|reflexivity|].
      apply get_letter_follows. now rewrite get_letter_len.
    + rewrite <- (get_letter_same (fun s => letter K s LtK) cI LtI c1) by letne.
      rewrite <- (get_letter_same (fun s => letter K s LtK) cJ LtJ (get_letter K cI LtI c1)) by letne.
      eapply (follows_letter_keeps (ror (let_in [cI]) (let_in [cJ]))); [eapply keeps_trans; apply get_letter_spec|reflexivity|].
      apply get_letter_follows. now rewrite !get_letter_len.
    + destruct I as [I|[]]. inversion I; subst ch l.
      eapply (follows_letter_keeps (ror (let_in [cX; cY; cZ]) (let_in [cI; cJ; cK]))); [eapply keeps_trans; eauto|reflexivity|].
      rewrite <- F1, <- F2 by (cbn; tauto).
      destruct (hasRadius (g_block c2)) eqn:E; [now apply get_letter_follows|].
      right. split; [reflexivity|]. intros X.
      apply (letter_keeps _ _ _ _ K2) in X; [|reflexivity]. apply (letter_keeps _ _ _ _ K1) in X; [|reflexivity].
      pose proof (GR X). congruence.
Qed.
End P.
