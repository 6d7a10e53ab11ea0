(** Proofs for C35 on lines outside the bounds: characters before the first word,
    numbers of more than 15 characters, more than 16 words. *)
Require Import List Arith NArith ZArith Bool Lia.
From Verif Require Import Base Num MotionModel GcodeModel GcodeSpec GBlockProofs.
Import ListNotations.
Open Scope N_scope.

Lemma split_skip lead l : forall fuel room, Forall plain lead -> (length (lead ++ l) <= fuel)%nat ->
  exists fuel', (length l <= fuel')%nat /\ split fuel (S room) (lead ++ l) = split fuel' (S room) l.
Proof.
  induction lead as [|c lead IH]; intros fuel room F L; cbn [app] in *; [eauto|].
  inversion F; subst. cbn [length] in L. destruct fuel; [lia|]. cbn [split]. rewrite plain_not_upper by assumption.
  apply IH; [assumption|lia].
Qed.
Lemma take_number_cut n t : forall r, Forall plain t -> (match r with [] => True | c :: _ => is_upper c = true end) ->
  take_number n (t ++ r) = (firstn n t, skipn n t ++ r).
Proof.
  intros r F. revert n. induction F as [|c t P F IH]; intros n R; cbn [app].
  - rewrite firstn_nil, skipn_nil. cbn [app]. destruct n; [reflexivity|]. destruct r as [|c r]; [reflexivity|]. cbn [take_number]. now rewrite R.
  - destruct n; [reflexivity|]. cbn [take_number]. rewrite (plain_not_upper _ P), IH by assumption. reflexivity.
Qed.
Lemma split_any ws : forall fuel room, Forall long_word ws -> (length (text_of ws) <= fuel)%nat ->
  split fuel room (text_of ws) = firstn room (map (fun w => (fst w, firstn 15 (snd w))) ws).
Proof.
  induction ws as [|[c t] ws IH]; intros fuel room H L.
  - rewrite firstn_nil. destruct fuel, room; reflexivity.
  - inversion H as [|? ? (U & P) H']; subst. cbn [fst snd] in *. unfold text_of in *. cbn [flat_map fst snd app length] in *.
    destruct fuel; [lia|]. destruct room; [reflexivity|]. cbn [split map firstn fst snd].
    unfold is_upper at 1. replace ((65 <=? c) && (c <=? 90)) with true by lia.
    rewrite take_number_cut; [|exact P|].
    + f_equal. rewrite app_length in L.
      destruct room as [|room].
      { cbn [firstn]. destruct fuel; reflexivity. }
      destruct (split_skip (skipn 15 t) (flat_map (fun w => fst w :: snd w) ws) fuel room) as (f & Lf & E).
      * clear -P. revert t P. generalize 15%nat. induction n; intros t P; [exact P|]. destruct t; [constructor|]. cbn. apply IHn. now inversion P.
      * rewrite app_length, skipn_length. lia.
      * rewrite E. apply IH; assumption.
    + destruct ws as [|[c' t'] ws]; [exact I|]. cbn [flat_map fst snd app].
      inversion H' as [|? ? (U' & _) _]; subst. cbn [fst] in U'. unfold is_upper. lia.
Qed.
(** Every text of letters and plain characters is made of words of some length. *)
Lemma cut_lemma t : Forall (fun c => 65 <= c <= 90 \/ plain c) t ->
  exists lead ws, t = lead ++ text_of ws /\ Forall plain lead /\ Forall long_word ws.
Proof.
  induction 1 as [|c t H _ (lead & ws & -> & F & G)]; [exists [], []; repeat split; constructor|].
  destruct H as [H|H].
  - exists [], ((c, lead) :: ws). repeat split; [constructor|]. constructor; [split; assumption|exact G].
  - exists (c :: lead), ws. repeat split; [constructor; assumption|exact G].
Qed.
Section W.
Context {D : Type} (K : num D).
Lemma any_split_lemma lead ws b : Forall plain lead -> Forall long_word ws -> getBlock K (lead ++ text_of ws) = Ok b ->
  Forall2 (fun lt w => w_letter w = fst lt /\ w_number w = number_of K (snd lt) /\
                       int_of K (fst lt) (number_of K (snd lt)) = Ok (w_int w)) (kept_words ws) (b_words b).
Proof.
  intros P H G. unfold getBlock in G. rewrite strip_plain in G.
  2:{ apply Forall_app. split; [eapply Forall_impl; [|exact P]; auto|].
      clear -H. induction H as [|[c t] ws (U & P) _ IH]; cbn; [constructor|]. constructor; [left; exact U|].
      apply Forall_app. split; [eapply Forall_impl; [|exact P]; auto|exact IH]. }
  destruct (length (lead ++ text_of ws) <? gCodeLineSize)%nat; [|discriminate].
  destruct (split_skip lead (text_of ws) (length (lead ++ text_of ws)) 15 P (le_n _)) as (f & L & E).
  unfold maxWords in G. rewrite E in G. rewrite split_any in G by assumption.
  destruct (add_words_words K _ _ _ G) as (w & E' & F). cbn [b_words block0 app] in E'. rewrite E'. exact F.
Qed.
End W.
