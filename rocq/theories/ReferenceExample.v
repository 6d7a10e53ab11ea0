(** A concrete program for the reference interpreter. *)
Require Import String List Arith NArith ZArith Bool Reals Lra Lia.
From Verif Require Import Base EventModel StepModel StepSpec Num NumR MotionModel CtrlModel CtrlSpec CtrlRSpec ProfileSpec GeomSpec GeomProofs RunSpec RunBriefProofs
  GcodeModel GcodeSpec GcodeRSpec GText ProgramSpec ReferenceSpec.
Import ListNotations.
Open Scope R_scope.

(** How long a move can take. *)
Lemma move_short r w mv l v A L : does r mv l -> 0 < v -> 0 < A -> 0 < w -> (forall i, (i < 3)%nat -> v <= rm_v r i) ->
  (forall a i, pa_arc (lg_path l) = Some a -> (i < 3)%nat -> v * v / ar_r a <= rm_a r i) -> (mv_mode mv <> Rapid -> mv_inverse mv = false /\ v <= mv_F mv / 60) ->
  (forall i, (i < 3)%nat -> A <= rm_a r i /\ A <= - rm_d r i) -> pa_len (lg_path l) <= L ->
  2 * L / v < 4294967295 * w -> 4 * (L / A) < (4294967295 * w) * (4294967295 * w) -> short w l.
Proof.
  intros (_ & _ & LO) V0 A0 W HV HA HF HM HL H1 H2. set (P := lg_path l) in *.
  assert (OK : path_ok P) by apply LO.
  set (m := mkSM mt_none (XF 0) (repeat (XF 0) 3) (repeat (XF 0) 3) 3 3 (XF 0) (XF 0) (XF 0) (XF 0) (XF 0) (speed_of mv (pa_len P)) (XF 0) false false (XF 0) true).
  assert (B : brief r w 1 m P).
  { apply brief_bound with v A; auto.
    - intros x E. cbn [m sm_vFeed] in E. unfold speed_of in E. destruct (mv_mode mv) eqn:EM; [discriminate|..];
      (destruct HF as (IV & F); [discriminate|]; rewrite IV in E; injection E as <-; lra).
    - eapply Rle_lt_trans; [|exact H1]. unfold Rdiv. apply Rmult_le_compat_r; [apply Rlt_le, Rinv_0_lt_compat; auto|lra].
    - eapply Rle_lt_trans; [|exact H2]. apply Rmult_le_compat_l; [lra|]. unfold Rdiv. apply Rmult_le_compat_r; [apply Rlt_le, Rinv_0_lt_compat; auto|lra]. }
  exact (B l eq_refl LO).
Qed.

(** The ends of a straight leg bound its length. *)
Lemma straight_length r mv l B : does r mv l -> is_arc (mv_mode mv) = false ->
  sq (mv_to mv 0%nat - mv_from mv 0%nat) + sq (mv_to mv 1%nat - mv_from mv 1%nat) + sq (mv_to mv 2%nat - mv_from mv 2%nat) <= B * B -> 0 < B -> pa_len (lg_path l) <= B.
Proof.
  intros (EN & ST & LO) EA H B0. rewrite EA in ST. assert (OK : path_ok (lg_path l)) by apply LO. destruct OK as (LP & OK). cbv zeta in OK.
  assert (DE : forall i, (i < 3)%nat -> pa_delta (lg_path l) i = mv_to mv i - mv_from mv i).
  { intros i Hi. destruct (EN i Hi) as (E0 & E1). rewrite <- E0, <- E1. unfold path_pos. rewrite ST. unfold linear_pos. field. lra. }
  unfold on_arc in OK. rewrite ST, !DE in OK by lia. apply sq_up; [lra|auto|]. unfold sq in *. lra.
Qed.
Lemma arc_length r mv l B R : does r mv l -> is_arc (mv_mode mv) = true -> mv_plane mv = (0, 1)%nat ->
  (forall a, arc_does mv a -> path_ok (lg_path l) -> pa_arc (lg_path l) = Some a -> ar_r a <= R) ->
  sq (mv_to mv 2%nat - mv_from mv 2%nat) + sq (R * (2 * PI)) <= B * B -> 0 < B -> pa_len (lg_path l) <= B.
Proof.
  intros (EN & ST & LO) EA PL HR H B0. rewrite EA in ST. destruct ST as (a & PA & AD). assert (OK : path_ok (lg_path l)) by apply LO.
  specialize (HR a AD OK PA). destruct AD as (AX & (_ & _ & SD) & _). rewrite PL in AX. injection AX as A0 A1.
  destruct OK as (LP & OK). cbv zeta in OK. unfold on_arc in OK. rewrite PA in OK. rewrite <- A0, <- A1 in OK. cbn [Nat.eqb orb] in OK. destruct OK as (RP & _ & _ & _ & OK).
  assert (DE : pa_delta (lg_path l) 2%nat = mv_to mv 2%nat - mv_from mv 2%nat).
  { destruct (EN 2%nat ltac:(lia)) as (E0 & E1). rewrite <- E0, <- E1. unfold path_pos. rewrite PA, <- A0, <- A1. cbn [Nat.eqb]. unfold linear_pos. field. lra. }
  rewrite DE in OK. pose proof PI_RGT_0 as PP.
  assert (DA : Rabs (ar_da a) <= 2 * PI) by (apply Rabs_le; destruct (match mv_mode mv with Clockwise => true | _ => false end); lra).
  assert (S : sq (ar_r a * ar_da a) <= sq (R * (2 * PI))).
  { unfold sq. replace (ar_r a * ar_da a * (ar_r a * ar_da a)) with ((ar_r a * Rabs (ar_da a)) * (ar_r a * Rabs (ar_da a))).
    - apply Rmult_le_compat; try (apply Rmult_le_pos; [lra|apply Rabs_pos]); apply Rmult_le_compat; try apply Rabs_pos; lra.
    - unfold Rabs. destruct (Rcase_abs (ar_da a)); ring. }
  apply sq_up; [lra|auto|]. unfold sq in *. lra.
Qed.

(** Words of whole numbers. *)
Definition int_text (n : N) : list N := if (n <? 10)%N then [48 + n]%N else if (n <? 100)%N then [48 + n / 10; 48 + n mod 10]%N else [48 + n / 100; 48 + n / 10 mod 10; 48 + n mod 10]%N.
Definition int_digits (n : N) : list N := if (n <? 10)%N then [n] else if (n <? 100)%N then [n / 10; n mod 10]%N else [n / 100; n / 10 mod 10; n mod 10]%N.
Ltac whole n := exists false, (int_digits n), []; split; [split; [repeat constructor|split; [discriminate|exists []; split; [left; reflexivity|right; split; reflexivity]]]|cbn; lra].
Ltac as_written ts := exists ts; split; [apply same_refl|]; split; [repeat constructor; vm_compute; intuition discriminate|]; split; [cbn; lia|]; split; [cbn; lia|];
  repeat (apply Forall2_cons; [split; [reflexivity|]|]); [..|apply Forall2_nil].

Definition ex_lines : list (list N) :=
  [txt "G21G90"; txt "G0X3Y4"; txt "G2X13I5J0F600"; txt "G1Y14"; txt "X3"].
Definition ex_words : list (list rword) :=
  [[(aG, 21); (aG, 90)]; [(aG, 0); (axis_letter 0, 3); (axis_letter 1, 4)];
   [(aG, 2); (axis_letter 0, 13); (centre_letter 0, 5); (centre_letter 1, 0); (aF, 600)]; [(aG, 1); (axis_letter 1, 14)]; [(axis_letter 0, 3)]].
Definition pt (x y : R) (i : nat) : R := match i with 0%nat => x | 1%nat => y | _ => 0 end.
Definition ex_moves : list move :=
  [mkMove Rapid (fun _ => 0) (pt 3 4) (0, 1)%nat None 0 false;
   mkMove Clockwise (pt 3 4) (pt 13 4) (0, 1)%nat (Some (Offsets 5 0)) 600 false;
   mkMove Straight (pt 13 4) (pt 13 14) (0, 1)%nat None 600 false;
   mkMove Straight (pt 13 14) (pt 3 14) (0, 1)%nat None 600 false].
Definition ex_end : rstate := mkRS Straight (0, 1)%nat false (Some 600) (pt 3 14).

Lemma ex_written : Forall2 written ex_lines ex_words.
Proof.
  unfold ex_lines, ex_words. repeat apply Forall2_cons; [..|apply Forall2_nil].
  - as_written [(aG, txt "21"); (aG, txt "90")]; [whole 21%N|whole 90%N].
  - as_written [(aG, txt "0"); (axis_letter 0, txt "3"); (axis_letter 1, txt "4")]; [whole 0%N|whole 3%N|whole 4%N].
  - as_written [(aG, txt "2"); (axis_letter 0, txt "13"); (centre_letter 0, txt "5"); (centre_letter 1, txt "0"); (aF, txt "600")];
    [whole 2%N|whole 13%N|whole 5%N|whole 0%N|whole 600%N].
  - as_written [(aG, txt "1"); (axis_letter 1, txt "14")]; [whole 1%N|whole 14%N].
  - as_written [(axis_letter 0, txt "3")]. whole 3%N.
Qed.

(** Which words are in a block. *)
Ltac letter_clash := match goal with H : ?a = ?b |- _ => let H' := fresh in assert (H' := H); vm_compute in H'; discriminate H' end.
Ltac not_in H := cbn [In] in H; repeat match type of H with _ \/ _ => destruct H as [H|H] end;
  try contradiction; try (let L := fresh "L" in let V := fresh "V" in pose proof (f_equal fst H) as L; pose proof (f_equal snd H) as V; cbn [fst snd] in L, V; first [letter_clash | exfalso; lra | exfalso; apply eq_IZR in V; discriminate]).
Ltac none := let v := fresh "v" in let H := fresh "H" in intros v H; not_in H.
Ltac no_code := let z := fresh "z" in let v := fresh "v" in let I := fresh "I" in let H := fresh "H" in intros z v I H;
  cbn [In mode_codes plane_codes inverse_codes] in I; repeat match type of I with _ \/ _ => destruct I as [I|I] end; try contradiction; injection I as <- <-; not_in H.
Ltac here := cbn [In]; tauto.
Ltac no_two := let E := fresh "E" in let I := fresh "I" in let s := fresh "s" in let E1 := fresh "E" in let E2 := fresh "E" in let z1 := fresh "z" in let z2 := fresh "z" in
  let I1 := fresh "I" in let I2 := fresh "I" in let V1 := fresh "V" in let V2 := fresh "V" in
  intros [(E & I)|(s & I & (E1 & z1 & I1 & V1) & (E2 & z2 & I2 & V2))];
  [first [letter_clash | cbn [fst In letters] in I; repeat match type of I with _ \/ _ => destruct I as [I|I] end; try contradiction; letter_clash]
  |cbn [fst In code_sets] in I; repeat match type of I with _ \/ _ => destruct I as [I|I] end; try contradiction; subst s; cbn [fst snd] in *; try letter_clash;
   cbn [In] in I1, I2; repeat match type of I1 with _ \/ _ => destruct I1 as [I1|I1] end; try contradiction; subst z1; try (exfalso; lra);
   repeat match type of I2 with _ \/ _ => destruct I2 as [I2|I2] end; try contradiction; subst z2; exfalso; lra].
Ltac a_code := right; match goal with |- exists s, _ /\ in_set s (_, IZR ?z) =>
  let go l := (exists (aG, l); split; [cbn; tauto|split; [reflexivity|exists z; split; [cbn; tauto|reflexivity]]]) in
  first [go [0; 1; 2; 3]%Z | go [17; 18; 19]%Z | go [21]%Z | go [54]%Z | go [90]%Z | go [93; 94]%Z] end.
Ltac a_known := first [left; vm_compute; tauto | a_code].
Ltac is_proper := split; [repeat (apply Forall_cons; [a_known|]); apply Forall_nil|repeat (apply FOP_cons; [repeat (apply Forall_cons; [no_two|]); apply Forall_nil|]); apply FOP_nil].
Ltac axis_cases := let i := fresh "i" in let H := fresh "H" in intros i H; destruct i as [|[|[|i]]]; [..|lia];
  first [left; cbn [In rs_pos pt axis_letter]; here | right; split; [none|reflexivity]].

Lemma ex_interp : interp rs_start ex_words ex_moves ex_end.
Proof.
  unfold ex_words, ex_moves.
  apply interp_set with rs_start.
  { constructor.
    - is_proper.
    - right. split; [reflexivity|no_code].
    - right. split; [reflexivity|no_code].
    - right. split; [reflexivity|no_code].
    - axis_cases.
    - intros f H. not_in H.
    - discriminate. }
  { intros [(z & k & I & H)|(i & v & L & H)].
    - cbn [In mode_codes] in I. repeat match type of I with _ \/ _ => destruct I as [I|I] end; try contradiction; injection I as <- <-; not_in H.
    - destruct i as [|[|[|i]]]; [..|lia]; not_in H. }
  { split; [|none]. intros i L. destruct i as [|[|[|i]]]; [..|lia]; none. }
  apply interp_move with (mkRS Rapid (0, 1)%nat false None (pt 3 4)).
  { constructor.
    - is_proper.
    - left. exists 0%Z. split; cbn; tauto.
    - right. split; [reflexivity|no_code].
    - right. split; [reflexivity|no_code].
    - axis_cases.
    - intros f H. not_in H.
    - discriminate. }
  { split; [left; exists 0%Z, Rapid; split; cbn; tauto|]. repeat (split; [reflexivity|]).
    split; [split; [intros i L; destruct i as [|[|[|i]]]; [..|lia]; none|none]|]. split; [reflexivity|]. split; [reflexivity|]. intros X. contradiction X. reflexivity. }
  apply interp_move with (mkRS Clockwise (0, 1)%nat false (Some 600) (pt 13 4)).
  { constructor.
    - is_proper.
    - left. exists 2%Z. split; cbn; tauto.
    - right. split; [reflexivity|no_code].
    - right. split; [reflexivity|no_code].
    - axis_cases.
    - intros f H. cbn [In] in H. repeat (destruct H as [H|H]; [pose proof (f_equal fst H) as L; pose proof (f_equal snd H) as V; cbn [fst snd] in L, V; try letter_clash|]); [lra|contradiction].
    - intros f [= <-]. split; [reflexivity|]. left. here. }
  { split; [left; exists 2%Z, Clockwise; split; cbn; tauto|]. repeat (split; [reflexivity|]).
    split; [split; [here|split; [here|none]]|]. split; [reflexivity|]. split; [discriminate|]. intros _. split; [left; here|discriminate]. }
  apply interp_move with (mkRS Straight (0, 1)%nat false (Some 600) (pt 13 14)).
  { constructor.
    - is_proper.
    - left. exists 1%Z. split; cbn; tauto.
    - right. split; [reflexivity|no_code].
    - right. split; [reflexivity|no_code].
    - axis_cases.
    - intros f H. not_in H.
    - intros f [= <-]. split; [reflexivity|]. right. split; [none|split; [unfold no_feed_code; no_code|reflexivity]]. }
  { split; [left; exists 1%Z, Straight; split; cbn; tauto|]. repeat (split; [reflexivity|]).
    split; [split; [intros i L; destruct i as [|[|[|i]]]; [..|lia]; none|none]|]. split; [reflexivity|]. split; [reflexivity|].
    intros _. split; [right; split; [none|split; [unfold no_feed_code; no_code|reflexivity]]|discriminate]. }
  apply interp_move with ex_end.
  { constructor.
    - is_proper.
    - right. split; [reflexivity|no_code].
    - right. split; [reflexivity|no_code].
    - right. split; [reflexivity|no_code].
    - axis_cases.
    - intros f H. not_in H.
    - intros f [= <-]. split; [reflexivity|]. right. split; [none|split; [unfold no_feed_code; no_code|reflexivity]]. }
  { split; [right; exists 0%nat, 3; split; [lia|here]|]. repeat (split; [reflexivity|]).
    split; [split; [intros i L; destruct i as [|[|[|i]]]; [..|lia]; none|none]|]. split; [reflexivity|]. split; [reflexivity|].
    intros _. split; [right; split; [none|split; [unfold no_feed_code; no_code|reflexivity]]|discriminate]. }
  apply interp_end.
Qed.

Lemma ex_range x d : 0 <= x <= 14 -> 0 <= d <= 10 -> in_range (200 * (Rabs x + d)).
Proof. intros X D. unfold in_range. rewrite (Rabs_pos_eq x) by lra. rewrite Rabs_pos_eq; lra. Qed.
Lemma ex_possible : forall r, (forall i, rm_k r i = 200) -> Forall (possible r) ex_moves.
Proof.
  intros r K. unfold ex_moves.
  apply Forall_cons; [|apply Forall_cons; [|apply Forall_cons; [|apply Forall_cons; [|apply Forall_nil]]]]; unfold possible; cbn [mv_from mv_to mv_plane mv_mode mv_centre is_arc].
  - exists 0. split; [|split; [|reflexivity]]. { intros i L. rewrite K. destruct i as [|[|[|i]]]; [..|lia]; cbn [pt]; split; apply ex_range; lra. } unfold distance; cbn [pt]; unfold sq; apply sqrt_lt_R0; lra.
  - assert (Q : 2 * sqrt (sq 5 + sq 0) = 10) by (replace (sq 5 + sq 0) with (5 * 5) by (unfold sq; lra); rewrite sqrt_square; lra).
    exists 10. split; [|cbn [pt]; unfold dist2, sq; rewrite <- Q; unfold sq; repeat split; lra].
    intros i L. rewrite K. destruct i as [|[|[|i]]]; [..|lia]; cbn [pt]; split; apply ex_range; lra.
  - exists 0. split; [|split; [|reflexivity]]. { intros i L. rewrite K. destruct i as [|[|[|i]]]; [..|lia]; cbn [pt]; split; apply ex_range; lra. } unfold distance; cbn [pt]; unfold sq; apply sqrt_lt_R0; lra.
  - exists 0. split; [|split; [|reflexivity]]. { intros i L. rewrite K. destruct i as [|[|[|i]]]; [..|lia]; cbn [pt]; split; apply ex_range; lra. } unfold distance; cbn [pt]; unfold sq; apply sqrt_lt_R0; lra.
Qed.

Lemma ex_short r w : (forall i, rm_v r i = 30 /\ rm_a r i = 200 /\ rm_d r i = -200) -> 1/60000 <= w ->
  forall mv l, In mv ex_moves -> does r mv l -> short w l.
Proof.
  intros K W mv l I D. pose proof PI_4. pose proof PI_RGT_0.
  assert (LEN : pa_len (lg_path l) <= 40 /\ (forall a, pa_arc (lg_path l) = Some a -> ar_r a = 5)).
  { destruct (is_arc (mv_mode mv)) eqn:EA.
    - assert (R5 : forall a, arc_does mv a -> path_ok (lg_path l) -> pa_arc (lg_path l) = Some a -> ar_r a = 5).
      { intros a AD OK PA. destruct OK as (_ & OK). cbv zeta in OK. rewrite PA in OK. destruct OK as (RP & _).
        destruct D as (EN & _). destruct AD as (AX & _ & CE).
        unfold ex_moves in I. cbn [In] in I. destruct I as [I|[I|[I|[I|[]]]]]; subst mv; try discriminate EA. cbn [mv_plane mv_centre mv_from mv_to] in *.
        injection AX as A0 A1. rewrite <- A0, <- A1 in CE. destruct CE as (C0 & C1). cbn [pt] in C0, C1.
        destruct (EN 0%nat ltac:(lia)) as (P0 & _). destruct (EN 1%nat ltac:(lia)) as (P1 & _). unfold path_pos in P0, P1. rewrite PA, <- A0, <- A1 in P0, P1. cbn [Nat.eqb pt] in P0, P1.
        match type of P0 with context [cos ?x] => assert (SC := sin2_cos2 x); set (co := cos x) in *; set (si := sin x) in * end. unfold Rsqr in SC.
        assert (X : ar_r a * co = -5) by lra. assert (Y : ar_r a * si = 0) by lra. 
        assert (Q : ar_r a * ar_r a = 5 * 5). { replace (ar_r a * ar_r a) with ((ar_r a * co) * (ar_r a * co) + (ar_r a * si) * (ar_r a * si)); [rewrite X, Y; lra|].
          transitivity (ar_r a * ar_r a * (si * si + co * co)); [ring|rewrite SC; ring]. }
        nra. }
      split.
      + apply arc_length with r mv 5; auto.
        * unfold ex_moves in I. cbn [In] in I. destruct I as [I|[I|[I|[I|[]]]]]; subst mv; try discriminate EA; reflexivity.
        * intros a X Y Z. rewrite (R5 a X Y Z). lra.
        * unfold ex_moves in I. cbn [In] in I. destruct I as [I|[I|[I|[I|[]]]]]; subst mv; try discriminate EA. cbn [mv_to mv_from pt]. unfold sq. nra.
        * lra.
      + intros a PA. pose proof D as (EN & ST & LO). rewrite EA in ST. destruct ST as (a' & PA' & AD). assert (a' = a) by congruence. subst a'. apply R5; auto. apply LO.
    - split.
      + apply straight_length with r mv; auto; [|lra].
        unfold ex_moves in I. cbn [In] in I. destruct I as [I|[I|[I|[I|[]]]]]; subst mv; try discriminate EA; cbn [mv_to mv_from pt]; unfold sq; lra.
      + intros a PA. destruct D as (_ & ST & _). rewrite EA in ST. congruence. }
  destruct LEN as (LEN & RAD).
  apply move_short with r mv 10 200 40; auto; try lra.
  - intros i _. destruct (K i) as (-> & _). lra.
  - intros a i PA _. rewrite (RAD a PA). destruct (K i) as (_ & -> & _). lra.
  - intros NR. unfold ex_moves in I. cbn [In] in I. destruct I as [I|[I|[I|[I|[]]]]]; subst mv; cbn [mv_mode mv_inverse mv_F] in *; try (contradiction NR; reflexivity); split; try reflexivity; lra.
  - intros i _. destruct (K i) as (_ & -> & ->). lra.
  - assert (1 <= 4294967295 * w) by lra. assert (1 * 1 <= 4294967295 * w * (4294967295 * w)) by (apply Rmult_le_compat; lra). lra.
Qed.
