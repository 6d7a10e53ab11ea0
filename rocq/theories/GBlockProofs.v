(** Proofs about gcodeblock.cpp: layout, word splitting, numbers, counters. *)
Require Import List Arith NArith ZArith Bool Lia ZifyBool ZifyNat ZifyN Reals Lra.
From Verif Require Import Base Num NumR MotionModel GcodeModel GcodeSpec.
Import ListNotations.
Open Scope N_scope.

(** ** Layout *)

(** End of the text inside prefix [a]. *)
Definition ended (a : list N) : bool := existsb (fun c => (c =? 0) || (c =? 10)) a.
Fixpoint cmt (b : bool) (a : list N) : bool :=
  match a with
  | [] => b
  | c :: r => if c =? 40 then cmt true r else if c =? 41 then cmt false r else cmt b r
  end.

Lemma strip_app b x y : strip b (x ++ y) = if ended x then strip b x else strip b x ++ strip (cmt b x) y.
Proof.
  revert b. induction x as [|c x IH]; intros b; [reflexivity|].
  cbn [app strip ended existsb cmt].
  destruct (c =? 0) eqn:E0; [reflexivity|]. destruct (c =? 10) eqn:E1; [reflexivity|].
  cbn [orb]. fold (ended x).
  destruct (c =? 40); [apply IH|]. destruct (c =? 41); [apply IH|].
  destruct ((c =? 32) || (c =? 9)); [apply IH|]. destruct b; [apply IH|].
  rewrite IH. destruct (ended x); reflexivity.
Qed.

Lemma cmt_open b a : cmt b a = true -> (b = true /\ ~ In 41 a) \/ comment_open a.
Proof.
  revert b. induction a as [|c a IH]; intros b H; cbn [cmt] in H; [left; auto|].
  destruct (c =? 40) eqn:E.
  - destruct (IH _ H) as [[_ N]|(p & q & -> & N)].
    + right. exists [], a. apply N.eqb_eq in E. subst. auto.
    + right. exists (c :: p), q. auto.
  - destruct (c =? 41) eqn:E1.
    + destruct (IH _ H) as [[X _]|(p & q & -> & N)]; [discriminate|]. right. exists (c :: p), q. auto.
    + destruct (IH _ H) as [[X N]|(p & q & -> & N)].
      * left. split; [auto|]. intros [->|I]; [discriminate|auto].
      * right. exists (c :: p), q. auto.
Qed.

Lemma strip_comment t b : ~ In 41 t -> ~ In 10 t -> ~ In 0 t -> strip true (t ++ 41 :: b) = strip false b.
Proof.
  induction t as [|c t IH]; intros A B C; cbn [app strip]; [reflexivity|].
  destruct (c =? 0) eqn:E; [apply N.eqb_eq in E; subst; exfalso; apply C; now left|].
  destruct (c =? 10) eqn:E1; [apply N.eqb_eq in E1; subst; exfalso; apply B; now left|].
  destruct (c =? 41) eqn:E2; [apply N.eqb_eq in E2; subst; exfalso; apply A; now left|].
  assert (X : strip true (t ++ 41 :: b) = strip false b) by (apply IH; intro; [apply A|apply B|apply C]; now right).
  destruct (c =? 40); [exact X|]. destruct ((c =? 32) || (c =? 9)); exact X.
Qed.

Lemma strip_same l l' : same_text l l' -> strip false l = strip false l'.
Proof.
  induction 1; auto; try congruence; rewrite !strip_app.
  - destruct (ended a); [reflexivity|]. f_equal.
  - destruct (ended a); [reflexivity|]. f_equal.
  - destruct (ended a); [reflexivity|]. f_equal. cbn [strip].
    replace (c =? 0) with false by lia. replace (c =? 10) with false by lia.
    replace (c =? 40) with false by lia. replace (c =? 41) with false by lia.
    replace (c =? 32) with false by lia. replace (c =? 9) with false by lia.
    replace (c + 32 =? 0) with false by lia. replace (c + 32 =? 10) with false by lia.
    replace (c + 32 =? 40) with false by lia. replace (c + 32 =? 41) with false by lia.
    replace (c + 32 =? 32) with false by lia. replace (c + 32 =? 9) with false by lia.
    cbn [orb]. destruct (cmt false a); [reflexivity|]. f_equal. unfold upcase.
    replace ((97 <=? c) && (c <=? 122)) with false by lia.
    replace ((97 <=? c + 32) && (c + 32 <=? 122)) with true by lia. lia.
  - destruct (ended a) eqn:E; [reflexivity|]. f_equal.
    destruct (cmt false a) eqn:C.
    + destruct (cmt_open _ _ C) as [[X _]|X]; [discriminate|contradiction].
    + cbn [strip]. change (40 =? 0) with false. change (40 =? 10) with false. change (40 =? 40) with true. cbv iota.
      now apply strip_comment.
  - destruct (ended a); [reflexivity|]. cbn [strip]. apply app_nil_r.
  - destruct (ended a); [reflexivity|]. cbn [strip]. apply app_nil_r.
Qed.

Lemma same_block {D} (K : num D) l l' : same_text l l' -> getBlock K l = getBlock K l'.
Proof. intros H. unfold getBlock. now rewrite (strip_same _ _ H). Qed.

Lemma same_line {D} (K : num D) pi c m l l' : same_text l l' -> g_line K pi c m l = g_line K pi c m l'.
Proof. intros H. unfold g_line, g_getBlock. now rewrite (same_block K _ _ H). Qed.

(** ** Splitting *)

Lemma strip_plain t : Forall (fun c => 65 <= c <= 90 \/ plain c) t -> strip false t = t.
Proof.
  induction 1 as [|c t H _ IH]; [reflexivity|]. cbn [strip].
  assert (X : c <> 0 /\ c <> 9 /\ c <> 10 /\ c <> 32 /\ c <> 40 /\ c <> 41 /\ ~ (97 <= c <= 122)).
  { destruct H as [H|(A & B & C)]; [repeat split; lia|].
    repeat split; try assumption; intros ->; apply C; simpl; tauto. }
  destruct X as (X1 & X2 & X3 & X4 & X5 & X6 & X7).
  replace (c =? 0) with false by lia. replace (c =? 10) with false by lia.
  replace (c =? 40) with false by lia. replace (c =? 41) with false by lia.
  replace (c =? 32) with false by lia. replace (c =? 9) with false by lia.
  cbn [orb]. rewrite IH. unfold upcase. replace ((97 <=? c) && (c <=? 122)) with false by lia. reflexivity.
Qed.

Lemma plain_not_upper c : plain c -> is_upper c = false.
Proof. intros (A & _ & _). unfold is_upper. lia. Qed.

Lemma take_number_app n t r : (length t <= n)%nat -> Forall plain t ->
  (match r with [] => True | c :: _ => is_upper c = true end) -> (n = length t -> True) ->
  take_number n (t ++ r) = (t, r).
Proof.
  intros L F R _. revert n L. induction F as [|c t P _ IH]; intros n L; cbn [app].
  - destruct n; [reflexivity|]. destruct r as [|c r]; [reflexivity|]. cbn [take_number]. rewrite R. reflexivity.
  - destruct n; [cbn [length] in L; lia|]. cbn [take_number]. rewrite (plain_not_upper _ P), IH; [reflexivity|].
    cbn [length] in L. lia.
Qed.

Lemma split_words ws : forall fuel room, Forall text_word ws -> (length ws <= room)%nat ->
  (length (text_of ws) <= fuel)%nat -> split fuel room (text_of ws) = ws.
Proof.
  induction ws as [|[c t] ws IH]; intros fuel room H L LF.
  - destruct fuel, room; reflexivity.
  - inversion H as [|? ? (U & Lt & P) H']; subst. cbn [fst snd] in *.
    unfold text_of in *. cbn [flat_map fst snd app length] in *.
    destruct fuel; [lia|]. destruct room; [lia|]. cbn [split].
    unfold is_upper at 1. replace ((65 <=? c) && (c <=? 90)) with true by lia.
    rewrite take_number_app; auto.
    + rewrite IH; auto; try lia. rewrite app_length in LF. lia.
    + destruct ws as [|[c' t'] ws]; [exact I|]. cbn [flat_map fst snd app].
      inversion H' as [|? ? (U' & _) _]; subst. cbn [fst] in U'. unfold is_upper. lia.
Qed.

Section W.
Context {D : Type} (K : num D).
Local Notation word := (@word D).

Lemma count_words (b : @block D) l n : b_words (count_word b l n) = b_words b.
Proof.
  unfold count_word.
  repeat match goal with
         | |- context[match ?x with _ => _ end] => destruct x; try reflexivity
         end.
Qed.

Lemma add_words_words l : forall (b b' : @block D), add_words K b l = Ok b' ->
  exists ws, b_words b' = b_words b ++ ws /\
    Forall2 (fun lt w => w_letter w = fst lt /\ w_number w = number_of K (snd lt) /\
                         int_of K (fst lt) (number_of K (snd lt)) = Ok (w_int w)) l ws.
Proof.
  induction l as [|lt l IH]; intros b b' H; cbn [add_words] in H.
  - inversion H; subst. exists []. rewrite app_nil_r. auto.
  - unfold add_word in H. destruct (int_of K (fst lt) (number_of K (snd lt))) as [i|] eqn:E; cbn [rbind] in H; [|discriminate].
    destruct (IH _ _ H) as (ws & E1 & F). rewrite count_words in E1. cbn [b_words] in E1.
    exists (mkW (fst lt) (number_of K (snd lt)) i :: ws). rewrite E1, <- app_assoc. split; [reflexivity|].
    constructor; [cbn; auto|exact F].
Qed.

(** C35: a line of words is split into these words. *)
Lemma split_lemma ws b : Forall text_word ws -> (length ws <= 16)%nat -> getBlock K (text_of ws) = Ok b ->
  Forall2 (fun lt w => w_letter w = fst lt /\ w_number w = number_of K (snd lt) /\
                       int_of K (fst lt) (number_of K (snd lt)) = Ok (w_int w)) ws (b_words b).
Proof.
  intros H L G. unfold getBlock in G. rewrite strip_plain in G.
  2:{ clear -H. induction H as [|[c t] ws (U & _ & P) _ IH]; cbn; [constructor|]. constructor; [left; exact U|].
      apply Forall_app. split; [eapply Forall_impl; [|exact P]; auto|exact IH]. }
  destruct (length (text_of ws) <? gCodeLineSize)%nat; [|discriminate].
  rewrite split_words in G; auto.
  destruct (add_words_words _ _ _ G) as (w & E & F). cbn [b_words block0 app] in E. now rewrite E.
Qed.

Lemma split_ok ws : Forall text_word ws -> (length ws <= 16)%nat -> (length (text_of ws) <= 255)%nat ->
  (forall l t, In (l, t) ws -> l = cG \/ l = cM -> exists n, int_of K l (number_of K t) = Ok n) ->
  exists b, getBlock K (text_of ws) = Ok b.
Proof.
  intros H L LT G. unfold getBlock. rewrite strip_plain.
  2:{ clear -H. induction H as [|[c t] ws (U & _ & P) _ IH]; cbn; [constructor|]. constructor; [left; exact U|].
      apply Forall_app. split; [eapply Forall_impl; [|exact P]; auto|exact IH]. }
  unfold gCodeLineSize. replace (length (text_of ws) <? 256)%nat with true by lia.
  rewrite split_words; auto. generalize (@block0 D) as b0.
  clear -G. induction ws as [|[l t] ws IH]; intros b0; cbn [add_words].
  - eauto.
  - unfold add_word. cbn [fst snd].
    assert (X : exists n, int_of K l (number_of K t) = Ok n).
    { destruct ((l =? cG) || (l =? cM)) eqn:E.
      - apply (G l t); [now left|]. apply orb_true_iff in E. destruct E as [E|E]; apply N.eqb_eq in E; auto.
      - unfold int_of. rewrite E. eauto. }
    destruct X as (n & ->). cbn [rbind]. apply IH. intros. eapply G; [right|]; eauto.
Qed.
End W.

(** ** Numbers *)

Lemma digits_chars ds : forall v n r, Forall (fun d => d < 10) ds ->
  (match r with [] => True | c :: _ => is_digit c = false end) ->
  digits v n (chars ds ++ r) = (fold_left (fun v d => 10 * v + d) ds v, (n + length ds)%nat, r).
Proof.
  induction ds as [|d ds IH]; intros v n r F R; cbn [chars map app fold_left length].
  - rewrite Nat.add_0_r. destruct r as [|c r]; [reflexivity|]. cbn [digits]. now rewrite R.
  - inversion F; subst. cbn [digits]. unfold is_digit at 1.
    replace ((48 <=? 48 + d) && (48 + d <=? 57)) with true by lia.
    replace (48 + d - 48) with d by lia. fold (chars ds). rewrite IH; auto. f_equal. f_equal. lia.
Qed.

Definition unsigned (u : list N) (v : N) (n k : nat) : Prop :=
  (let '(v, n, r) := digits 0 0 u in
   let '(v, n, k) := match r with
                    | c :: r' => if c =? 46 then let '(v', n', _) := digits v n r' in (v', n', (n' - n)%nat)
                                 else (v, n, 0%nat)
                    | [] => (v, n, 0%nat)
                    end in (v, n, k)) = (v, n, k).

Lemma unsigned_decimal ip fp u : Forall (fun d => d < 10) (ip ++ fp) ->
  u = chars ip ++ 46 :: chars fp \/ (fp = [] /\ u = chars ip) ->
  unsigned u (dec_val (ip ++ fp)) (length (ip ++ fp)) (length fp).
Proof.
  intros F H. apply Forall_app in F. destruct F as [Fi Ff]. unfold unsigned, dec_val.
  rewrite fold_left_app, app_length.
  destruct H as [->|[-> ->]].
  - rewrite digits_chars; auto. change (46 =? 46) with true. cbv iota.
    rewrite <- (app_nil_r (chars fp)), digits_chars; auto. cbn [Nat.add]. repeat f_equal. lia.
  - rewrite <- (app_nil_r (chars ip)), digits_chars; auto. cbn [fold_left length Nat.add].
    rewrite ?app_nil_r, Nat.add_0_r. reflexivity.
Qed.

Lemma parse_decimal t neg ip fp : decimal t neg ip fp ->
  parse_number t = (neg, dec_val (ip ++ fp), length fp).
Proof.
  intros (F & NE & sg & SG & T).
  assert (exists u, t = sg ++ u /\ (u = chars ip ++ 46 :: chars fp \/ (fp = [] /\ u = chars ip))) as (u & -> & U)
    by (destruct T as [->|[? ->]]; eauto). clear T.
  pose proof (unsigned_decimal ip fp u F U) as X. unfold unsigned in X.
  assert (HD : exists c r, u = c :: r /\ (c = 46 \/ 48 <= c <= 57)).
  { destruct ip as [|d ip].
    - destruct U as [->|[-> ->]]; [cbn; eauto|]. cbn in NE. contradiction.
    - inversion F; subst. destruct U as [->|[-> ->]]; cbn [chars map app]; eexists _, _; (split; [reflexivity|lia]). }
  assert (LN : exists k, length (ip ++ fp) = S k) by (destruct (ip ++ fp); [contradiction|cbn; eauto]).
  destruct LN as (k & LN). destruct HD as (c & r & -> & HC).
  assert (SK : skip_space (sg ++ c :: r) = sg ++ c :: r).
  { unfold sign_text in SG. destruct neg; [subst|destruct SG as [->| ->]]; cbn; try reflexivity.
    unfold is_space. replace ((c =? 32) || (9 <=? c) && (c <=? 13)) with false by lia. reflexivity. }
  unfold parse_number. rewrite SK.
  assert (E : match sg ++ c :: r with
              | c0 :: r0 => if c0 =? 45 then (true, r0) else if c0 =? 43 then (false, r0) else (false, sg ++ c :: r)
              | [] => (false, sg ++ c :: r) end = (neg, c :: r)).
  { unfold sign_text in SG. destruct neg; [subst; reflexivity|destruct SG as [->| ->]; [|reflexivity]].
    cbn [app]. replace (c =? 45) with false by lia. replace (c =? 43) with false by lia. reflexivity. }
  rewrite E. destruct (digits 0 0 (c :: r)) as [[v n] r0].
  destruct r0 as [|c0 r0].
  - inversion X; subst. rewrite LN. reflexivity.
  - destruct (c0 =? 46).
    + destruct (digits v n r0) as [[v' n'] r1]. inversion X; subst. rewrite LN. reflexivity.
    + inversion X; subst. rewrite LN. reflexivity.
Qed.

Lemma number_decimal {D} (K : num D) t neg ip fp : decimal t neg ip fp ->
  number_of K t = (if neg then nopp K else fun x => x)
                    (ndec K (Z.of_N (dec_val (ip ++ fp))) (N.of_nat (length fp))).
Proof. intros H. unfold number_of. rewrite (parse_decimal _ _ _ _ H). now destruct neg. Qed.

Lemma number_real t neg ip fp : decimal t neg ip fp ->
  number_of x_num t = XF ((if neg then -1 else 1) * (IZR (Z.of_N (dec_val (ip ++ fp))) / 10 ^ length fp))%R.
Proof.
  intros H. rewrite (number_decimal _ _ _ _ _ H). cbn [ndec x_num nopp]. rewrite Nat2N.id.
  destruct neg; cbn [xopp]; f_equal; lra.
Qed.

(** ** Counters *)

Section C.
Context {D : Type} (K : num D).
Local Notation word := (@word D).

(** Number of words satisfying a test *)
Definition cnt (p : N -> N -> bool) (ws : list word) : N :=
  fold_left (fun a w => if p (w_letter w) (w_int w) then a + 1 else a) ws 0.
Lemma cnt_snoc p ws w : cnt p (ws ++ [w]) = if p (w_letter w) (w_int w) then cnt p ws + 1 else cnt p ws.
Proof. unfold cnt. rewrite fold_left_app. reflexivity. Qed.

Definition key_in (T : list (N * N)) (l n : N) : bool := existsb (fun k => (fst k =? l) && (snd k =? n)) T.
Definition let_in (T : list N) (l n : N) : bool := existsb (fun k => k =? l) T.

Lemma nth_upd_eq {T} (l : list T) i x d : (i < length l)%nat -> nth i (upd l i x) d = x.
Proof. revert i. induction l as [|h l IH]; intros [|i] H; cbn in *; try lia; auto. apply IH. lia. Qed.
Lemma nth_upd_ne {T} (l : list T) i j x d : i <> j -> nth i (upd l j x) d = nth i l d.
Proof. revert i j. induction l as [|h l IH]; intros [|i] [|j] H; cbn; auto; try congruence. Qed.
Lemma length_upd {T} (l : list T) i x : length (upd l i x) = length l.
Proof. revert i. induction l as [|h l IH]; intros [|i]; cbn; auto. Qed.

Lemma nth_inc l i j : (j < length l)%nat -> nth i (inc l j) 0 = if (i =? j)%nat then nth i l 0 + 1 else nth i l 0.
Proof.
  intros H. unfold inc. destruct (Nat.eqb_spec i j) as [->|N].
  - now rewrite nth_upd_eq.
  - now rewrite nth_upd_ne.
Qed.

Definition counted (b : @block D) : Prop :=
  length (b_groups b) = 11%nat /\ length (b_letters b) = 13%nat /\
  (forall g, nth (mg_index g) (b_groups b) 0 = cnt (key_in (group_words g)) (b_words b)) /\
  (forall l g, In (l, g) value_letters -> nth (lt_index g) (b_letters b) 0 = cnt (let_in [l]) (b_words b)) /\
  nth (lt_index LtT) (b_letters b) 0 = 0 /\
  b_nAxis b = cnt (let_in [cX; cY; cZ]) (b_words b) /\
  b_nOffset b = cnt (let_in [cI; cJ; cK]) (b_words b) /\
  b_nRadius b = cnt (let_in [cR]) (b_words b).

Definition g_codes : list N :=
  [0; 10; 20; 30; 170; 180; 190; 900; 910; 200; 210; 930; 940; 540; 550; 560; 570; 580; 590; 40; 100; 280; 300; 530].
Definition m_codes : list N := [30; 40; 50; 70; 80; 90].

Lemma count_g_other (b : @block D) n : ~ In n g_codes -> count_word b cG n = b.
Proof.
  intros H. unfold count_word. change (cG =? cG) with true. cbv iota.
  repeat match goal with
         | |- context[match ?x with _ => _ end] => destruct x; try reflexivity
         end; exfalso; apply H; vm_compute; tauto.
Qed.
Lemma count_m_other (b : @block D) n : ~ In n m_codes -> count_word b cM n = b.
Proof.
  intros H. unfold count_word. change (cM =? cG) with false. change (cM =? cM) with true. cbv iota.
  repeat match goal with
         | |- context[match ?x with _ => _ end] => destruct x; try reflexivity
         end; exfalso; apply H; vm_compute; tauto.
Qed.

(** key_in on a G or M word outside the tables *)
Lemma key_other_g g n : ~ In n g_codes -> key_in (group_words g) cG n = false.
Proof.
  intros H. destruct (key_in (group_words g) cG n) eqn:E; [|reflexivity]. exfalso. apply H.
  unfold key_in in E. apply existsb_exists in E. destruct E as ([l k] & I & E). cbn [fst snd] in E.
  apply andb_true_iff in E. destruct E as [L E]. apply N.eqb_eq in E. subst k. apply N.eqb_eq in L. subst l.
  destruct g; cbn [group_words In] in I; repeat (destruct I as [I|I]; [inversion I; subst; vm_compute; tauto|]); destruct I.
Qed.
Lemma key_other_m g n : ~ In n m_codes -> key_in (group_words g) cM n = false.
Proof.
  intros H. destruct (key_in (group_words g) cM n) eqn:E; [|reflexivity]. exfalso. apply H.
  unfold key_in in E. apply existsb_exists in E. destruct E as ([l k] & I & E). cbn [fst snd] in E.
  apply andb_true_iff in E. destruct E as [L E]. apply N.eqb_eq in E. subst k. apply N.eqb_eq in L. subst l.
  destruct g; cbn [group_words In] in I; repeat (destruct I as [I|I]; [inversion I; subst; vm_compute; tauto|]); destruct I.
Qed.
Lemma key_other g l n : l <> cG -> l <> cM -> key_in (group_words g) l n = false.
Proof.
  intros H1 H2. destruct (key_in (group_words g) l n) eqn:E; [|reflexivity]. exfalso.
  unfold key_in in E. apply existsb_exists in E. destruct E as ([l' k] & I & E). cbn [fst snd] in E.
  apply andb_true_iff in E. destruct E as [L E]. apply N.eqb_eq in L. subst l'.
  destruct g; cbn [group_words In] in I; repeat (destruct I as [I|I]; [inversion I; subst; congruence|]); destruct I.
Qed.

Definition addw (b : @block D) (w : word) : block :=
  mkB (b_words b ++ [w]) (b_nAxis b) (b_nOffset b) (b_nRadius b) (b_groups b) (b_letters b).

Ltac fin_in I := cbn [value_letters In] in I; repeat (destruct I as [I|I]; [inversion I; subst; clear I|]); try destruct I.

Lemma counted_add (b : @block D) w : counted b -> counted (count_word (addw b w) (w_letter w) (w_int w)).
Proof.
  intros (L1 & L2 & CG & CL & CT & CA & CO & CR).
  destruct w as [l x n]. cbn [w_letter w_int].
  destruct (N.eq_dec l cG) as [->|NG].
  - destruct (in_dec N.eq_dec n g_codes) as [I|NI].
    + assert (CL' : forall l g, In (l, g) value_letters -> nth (lt_index g) (b_letters b) 0 = cnt (let_in [l]) (b_words b ++ [mkW cG x n])).
      { intros l g I'. rewrite cnt_snoc. cbn [w_letter w_int]. rewrite (CL _ _ I'). fin_in I'; reflexivity. }
      cbn [g_codes In] in I.
      repeat (destruct I as [<-|I];
        [ unfold count_word; change (cG =? cG) with true; cbv iota;
          unfold counted, cnt_group, addw; cbn [b_groups b_letters b_words b_nAxis b_nOffset b_nRadius];
          unfold inc at 1; rewrite ?length_upd;
          (split; [try (unfold inc; rewrite length_upd); exact L1|]); (split; [exact L2|]);
          (split; [|split; [exact CL'|split; [exact CT|rewrite !cnt_snoc; cbn [w_letter w_int]; auto]]]);
          intros g; rewrite cnt_snoc; cbn [w_letter w_int]; rewrite <- CG;
          rewrite ?nth_inc by (unfold inc; rewrite ?length_upd, L1; destruct g; cbn; lia);
          destruct g; cbn; rewrite ?N.add_0_r; reflexivity
        | ]).
      destruct I.
    + rewrite count_g_other by assumption. unfold addw.
      split; [exact L1|]. split; [exact L2|].
      split; [intros g; cbn [b_groups b_words]; rewrite cnt_snoc; cbn [w_letter w_int]; rewrite key_other_g by assumption; apply CG|].
      split; [intros l g I'; cbn [b_letters b_words]; rewrite cnt_snoc; cbn [w_letter w_int]; rewrite (CL _ _ I'); fin_in I'; reflexivity|].
      split; [exact CT|]. cbn [b_nAxis b_nOffset b_nRadius b_words]. rewrite !cnt_snoc. cbn [w_letter w_int]. auto.
  - destruct (N.eq_dec l cM) as [->|NM].
    + destruct (in_dec N.eq_dec n m_codes) as [I|NI].
      * assert (CL' : forall l g, In (l, g) value_letters -> nth (lt_index g) (b_letters b) 0 = cnt (let_in [l]) (b_words b ++ [mkW cM x n])).
        { intros l g I'. rewrite cnt_snoc. cbn [w_letter w_int]. rewrite (CL _ _ I'). fin_in I'; reflexivity. }
        cbn [m_codes In] in I.
        repeat (destruct I as [<-|I];
        [ unfold count_word; change (cM =? cG) with false; change (cM =? cM) with true; cbv iota;
          unfold counted, cnt_group, addw; cbn [b_groups b_letters b_words b_nAxis b_nOffset b_nRadius];
          unfold inc at 1; rewrite ?length_upd;
          (split; [try (unfold inc; rewrite length_upd); exact L1|]); (split; [exact L2|]);
          (split; [|split; [exact CL'|split; [exact CT|rewrite !cnt_snoc; cbn [w_letter w_int]; auto]]]);
          intros g; rewrite cnt_snoc; cbn [w_letter w_int]; rewrite <- CG;
          rewrite ?nth_inc by (unfold inc; rewrite ?length_upd, L1; destruct g; cbn; lia);
          destruct g; cbn; rewrite ?N.add_0_r; reflexivity
        | ]).
        destruct I.
      * rewrite count_m_other by assumption. unfold addw.
        split; [exact L1|]. split; [exact L2|].
        split; [intros g; cbn [b_groups b_words]; rewrite cnt_snoc; cbn [w_letter w_int]; rewrite key_other_m by assumption; apply CG|].
        split; [intros l g I'; cbn [b_letters b_words]; rewrite cnt_snoc; cbn [w_letter w_int]; rewrite (CL _ _ I'); fin_in I'; reflexivity|].
        split; [exact CT|]. cbn [b_nAxis b_nOffset b_nRadius b_words]. rewrite !cnt_snoc. cbn [w_letter w_int]. auto.
    + (* value letters *)
      assert (CG' : forall g, nth (mg_index g) (b_groups b) 0 = cnt (key_in (group_words g)) (b_words b ++ [mkW l x n])).
      { intros g. rewrite cnt_snoc. cbn [w_letter w_int]. rewrite key_other by assumption. apply CG. }
      unfold count_word. replace (l =? cG) with false by (symmetry; now apply N.eqb_neq).
      replace (l =? cM) with false by (symmetry; now apply N.eqb_neq).
      assert (XL : forall (h : gletter) (c : N), In (c, h) value_letters -> l = c ->
         forall l' g, In (l', g) value_letters ->
           nth (lt_index g) (inc (b_letters b) (lt_index h)) 0 = cnt (let_in [l']) (b_words b ++ [mkW l x n])).
      { intros h c Ih -> l' g I'. rewrite nth_inc by (rewrite L2; destruct h; cbn; lia).
        rewrite cnt_snoc. cbn [w_letter w_int]. rewrite <- (CL _ _ I'). clear -Ih I'.
        fin_in Ih; fin_in I'; reflexivity. }
      assert (XT : forall (h : gletter), h <> LtT -> nth (lt_index LtT) (inc (b_letters b) (lt_index h)) 0 = 0).
      { intros h Hh. rewrite nth_inc by (rewrite L2; destruct h; cbn; lia). rewrite CT. now destruct h. }
      repeat match goal with
      | |- counted (if ?l =? ?c then _ else _) =>
          destruct (N.eqb_spec l c) as [E|?];
          [ unfold counted, cnt_letter, cnt_axis, cnt_offset, cnt_radius, addw;
            cbn [b_groups b_letters b_words b_nAxis b_nOffset b_nRadius];
            (split; [exact L1|]); (split; [unfold inc; rewrite length_upd; exact L2|]);
            (split; [exact CG'|]);
            (split; [eapply XL; [|exact E]; cbn; tauto|]);
            (split; [apply XT; discriminate|]);
            rewrite !cnt_snoc; cbn [w_letter w_int]; rewrite E, <- CA, <- CO, <- CR; cbn; auto
          | ]
      end.
      unfold counted, addw. cbn [b_groups b_letters b_words b_nAxis b_nOffset b_nRadius].
      split; [exact L1|]. split; [exact L2|]. split; [exact CG'|].
      assert (XN : forall T, (forall c, In c T -> l <> c) -> let_in T l n = false).
      { intros T HT. unfold let_in. apply not_true_iff_false. intros E. apply existsb_exists in E.
        destruct E as (c & I & E). apply N.eqb_eq in E. subst. now apply (HT l). }
      split.
      { intros l' g I'. rewrite cnt_snoc. cbn [w_letter w_int]. rewrite XN; [now apply CL|].
        intros c [<-|[]]. fin_in I'; assumption. }
      split; [exact CT|]. rewrite !cnt_snoc. cbn [w_letter w_int].
      rewrite !XN; auto; intros c I; cbn [In] in I; intuition congruence.
Qed.

Lemma counted0 : counted (@block0 D).
Proof.
  split; [reflexivity|]. split; [reflexivity|]. split; [intros g; destruct g; reflexivity|].
  split; [intros l g I; fin_in I; reflexivity|]. repeat split.
Qed.

Lemma counted_words l : forall (b b' : @block D), counted b -> add_words K b l = Ok b' -> counted b'.
Proof.
  induction l as [|lt l IH]; intros b b' C H; cbn [add_words] in H; [inversion H; now subst|].
  unfold add_word in H. destruct (int_of K (fst lt) (number_of K (snd lt))) as [i|] eqn:E; cbn [rbind] in H; [|discriminate].
  eapply IH; [|exact H]. apply (counted_add b (mkW (fst lt) (number_of K (snd lt)) i)). exact C.
Qed.

Lemma counted_line b : from_line K b -> counted b.
Proof.
  intros (l & H). unfold getBlock in H. destruct (length (strip false l) <? gCodeLineSize)%nat; [|discriminate].
  eapply counted_words; [apply counted0|exact H].
Qed.
End C.
