(** Lines that come from the host interface fit the parser's buffer. *)
Require Import List Arith NArith Bool Lia.
From Verif Require Import Base Num HostModel HostSpec HostProofs.
From Verif Require GcodeModel.
Import ListNotations.
Open Scope N_scope.

Lemma strip_len l : forall b, (length (GcodeModel.strip b l) <= length l)%nat.
Proof.
  induction l as [|c l IH]; intros b; cbn [GcodeModel.strip]; [cbn; lia|].
  repeat match goal with |- context [if ?x then _ else _] => destruct x end; cbn [length]; try lia;
  match goal with |- context [GcodeModel.strip ?b l] => specialize (IH b); lia end.
Qed.
Lemma strip_line t r : forall b, (length (GcodeModel.strip b (t ++ LF :: r)) <= length t)%nat.
Proof.
  induction t as [|c t IH]; intros b; cbn [app].
  - destruct b; cbn; lia.
  - cbn [GcodeModel.strip].
    repeat match goal with |- context [if ?x then _ else _] => destruct x end; cbn [length]; try lia;
    match goal with |- context [GcodeModel.strip ?b (t ++ _)] => specialize (IH b); lia end.
Qed.
Lemma message_fits h ops m :
  length (rx_arr h) = 256%nat -> length (tx_arr h) = 256%nat ->
  let h' := fst (host_run (host_initialize h) ops) in
  snd (host_step h' HPoll) = HMsg m ->
  (length m <= 257)%nat /\ (length (GcodeModel.strip false m) < GcodeModel.gCodeLineSize)%nat.
Proof.
  intros R T h' E.
  assert (HM : hasMessage h' = true).
  { destruct (hasMessage h') eqn:X; [reflexivity|]. cbn [host_step] in E. rewrite X in E. discriminate. }
  destruct (rx_progress_lemma h ops R T HM) as (m' & E' & (t & -> & _) & L). fold h' in E'. rewrite E in E'. injection E' as ->.
  split; [exact L|]. rewrite app_length in L. cbn [length] in L. pose proof (strip_line t [0] false) as S1. unfold GcodeModel.gCodeLineSize. lia.
Qed.
Lemma long_line D (K : num D) l : (GcodeModel.gCodeLineSize <= length (GcodeModel.strip false l))%nat -> GcodeModel.getBlock K l = UB.
Proof.
  intros H. unfold GcodeModel.getBlock. apply Nat.ltb_ge in H. now rewrite H.
Qed.
