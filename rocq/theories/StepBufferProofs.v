Require Import List Arith NArith ZArith Bool Lia ZifyBool ZifyNat ZifyN.
From Verif Require Import Base BaseProofs EventModel EventProofs StepModel StepSpec.
Import ListNotations.
Open Scope N_scope.
Ltac Zify.zify_post_hook ::= Z.div_mod_to_equations.

Definition wnth (W : list step) (k : N) : step := nth (N.to_nat k) W dstep.

(** Ghost invariant: [W] all accepted writes so far, [r] number of successful
    reads so far. *)
Definition sb_inv (b : stepbuf) (W : list step) (r : N) : Prop :=
  length (sb_time b) = 256%nat /\ length (sb_sig b) = 256%nat /\
  r <= N.of_nat (length W) /\
  sb_level b = N.of_nat (length W) - r /\ sb_level b <= 256 /\
  sb_head b = r mod 256 /\
  (forall k, r <= k -> k < N.of_nat (length W) -> rget 0 (sb_sig b) (k mod 256) = signals (wnth W k)) /\
  (forall k, r <= k -> k + 2 < N.of_nat (length W) ->
     rget 0 (sb_time b) (k mod 256) = timeBefore (wnth W (k + 2))).

Lemma wnth_app1 W s k : k < N.of_nat (length W) -> wnth (W ++ [s]) k = wnth W k.
Proof. intro; unfold wnth. apply app_nth1. lia. Qed.
Lemma wnth_app2 W s : wnth (W ++ [s]) (N.of_nat (length W)) = s.
Proof. unfold wnth. rewrite Nat2N.id, app_nth2, Nat.sub_diag by lia. reflexivity. Qed.

Lemma mod256_inj a b : a mod 256 = b mod 256 -> a <= b -> b < a + 256 -> a = b.
Proof. intros. lia. Qed.

Lemma sb_write_inv b W r s :
  sb_inv b W r -> sb_level b < 256 -> sb_inv (sb_write b s) (W ++ [s]) r.
Proof.
  intros (L1 & L2 & HR & HL & HM & HH & HS & HT) Hlt.
  unfold sb_write, sb_length. replace (sb_level b <? 256) with true by lia.
  set (w := N.of_nat (length W)) in *.
  assert (Hh: sb_head b < 256) by (rewrite HH; apply N.mod_lt; discriminate).
  rewrite !add32_small, !sub32_small by (rewrite ?add32_small by (unfold two32; lia); unfold two32; lia).
  assert (E1: (sb_head b + sb_level b) mod 256 = w mod 256).
  { rewrite HH, HL, N.add_mod_idemp_l by lia. f_equal. lia. }
  assert (E2: (256 + sb_head b + sb_level b - 2) mod 256 = (254 + w) mod 256).
  { replace (256 + sb_head b + sb_level b - 2) with (sb_head b + (254 + sb_level b)) by lia.
    rewrite HH, HL, N.add_mod_idemp_l by lia. f_equal. lia. }
  rewrite E1, E2.
  unfold sb_inv; cbn [sb_time sb_sig sb_head sb_level sb_total].
  rewrite !rset_length, app_length; cbn [length].
  replace (N.of_nat (length W + 1)) with (w + 1) by lia.
  split; [auto|]. split; [auto|]. split; [lia|]. split; [lia|]. split; [lia|]. split; [auto|]. split.
  - intros k K1 K2. destruct (N.eq_dec k w) as [->|Hne].
    + rewrite rget_rset_eq by (rewrite L2; apply N.mod_lt; discriminate).
      unfold w. now rewrite wnth_app2.
    + rewrite rget_rset_neq by (intro X; symmetry in X; apply mod256_inj in X; lia).
      rewrite wnth_app1 by lia. apply HS; lia.
  - intros k K1 K2. destruct (N.eq_dec (k + 2) w) as [Ek|Hne].
    + rewrite Ek. replace (k mod 256) with ((254 + w) mod 256) by (rewrite <- Ek; lia).
      rewrite rget_rset_eq by (rewrite L1; apply N.mod_lt; discriminate).
      unfold w. now rewrite wnth_app2.
    + rewrite rget_rset_neq by lia.
      rewrite wnth_app1 by lia. apply HT; lia.
Qed.

Lemma sb_write_full b s : 256 <= sb_level b ->
  sb_write b s = mkSb (sb_time b) (sb_sig b) (sb_head b) (sb_level b) (sb_total b)
         (sb_minTotal b) (sb_minLevel b) stepBufferOverflow.
Proof. intro. unfold sb_write, sb_length. replace (sb_level b <? 256) with false by lia. reflexivity. Qed.

Lemma sb_read_inv b W r :
  sb_inv b W r -> 0 < sb_level b ->
  sb_inv (fst (sb_read b)) W (r + 1) /\
  signals (snd (sb_read b)) = signals (wnth W r) /\
  (3 <= sb_level b -> timeBefore (snd (sb_read b)) = timeBefore (wnth W (r + 2))).
Proof.
  intros (L1 & L2 & HR & HL & HM & HH & HS & HT) Hlt.
  unfold sb_read. replace (0 <? sb_level b) with true by lia.
  assert (Hh: sb_head b < 256) by (rewrite HH; apply N.mod_lt; discriminate).
  cbn [fst snd signals timeBefore]. split; [|split].
  - unfold sb_inv; cbn [sb_time sb_sig sb_head sb_level sb_total].
    rewrite add32_small, sub32_small by (unfold two32; lia). unfold sb_length.
    split; [auto|]. split; [auto|]. split; [lia|]. split; [lia|]. split; [lia|]. split; [lia|].
    split; intros; [apply HS|apply HT]; lia.
  - rewrite HH. apply HS; lia.
  - intro. rewrite HH. apply HT; lia.
Qed.

Lemma sb_read_empty b : sb_level b = 0 ->
  sb_read b = (mkSb (sb_time b) (sb_sig b) (sb_head b) (sb_level b) (sb_total b)
          (sb_minTotal b) (sb_minLevel b) stepBufferUnderflow, mkStep 1000 1000).
Proof. intro H. unfold sb_read. now rewrite H. Qed.

(** Condition of C11: every read at level >= 3, every write below 256. *)


Lemma sb_paced_run ops : forall b W r,
  sb_inv b W r -> paced (sb_level b) ops ->
  let '(b', rs) := sb_run b ops in
  sb_inv b' (W ++ written ops) (r + N.of_nat (length rs)) /\
  forall i, (i < length rs)%nat ->
    signals (nth i rs dstep) = signals (wnth (W ++ written ops) (r + N.of_nat i)) /\
    timeBefore (nth i rs dstep) = timeBefore (wnth (W ++ written ops) (r + N.of_nat i + 2)).
Proof.
  induction ops as [|o ops IH]; intros b W r HI HP.
  - cbn. rewrite app_nil_r, N.add_0_r. split; auto. intros; lia.
  - destruct o as [s|]; cbn [sb_run written flat_map].
    + destruct HP as [HP1 HP2].
      pose proof (sb_write_inv b W r s HI HP1) as HI'.
      assert (E: sb_level (sb_write b s) = sb_level b + 1).
      { unfold sb_write, sb_length. replace (sb_level b <? 256) with true by lia. cbn.
        apply add32_small. unfold two32. lia. }
      specialize (IH (sb_write b s) (W ++ [s]) r HI' ltac:(now rewrite E)).
      destruct (sb_run (sb_write b s) ops) as [b' rs].
      rewrite <- app_assoc in IH. exact IH.
    + destruct HP as [HP1 HP2].
      destruct (sb_read_inv b W r HI ltac:(lia)) as (HI' & ES & ET).
      assert (E: sb_level (fst (sb_read b)) = sb_level b - 1).
      { unfold sb_read. replace (0 <? sb_level b) with true by lia. cbn.
        destruct HI as (_&_&_&_&?&_). apply sub32_small; unfold two32; lia. }
      destruct (sb_read b) as [b1 x]. cbn [fst snd] in *.
      specialize (IH b1 W (r + 1) HI' ltac:(now rewrite E)).
      destruct (sb_run b1 ops) as [b' xs]. destruct IH as [I1 I2].
      change (flat_map _ ops) with (written ops) in *. cbn [app].
      split.
      * cbn [length]. replace (r + N.of_nat (S (length xs))) with (r + 1 + N.of_nat (length xs)) by lia. exact I1.
      * intros [|i] Hi.
        -- cbn [nth]. rewrite N.add_0_r.
           assert (HLW: r + 2 < N.of_nat (length W)) by (destruct HI as (_&_&_&?&_); lia).
           specialize (ET HP1).
           assert (HA: forall k, k < N.of_nat (length W) -> wnth (W ++ written ops) k = wnth W k).
           { intros k Hk. unfold wnth. apply app_nth1. lia. }
           rewrite !HA by lia. auto.
        -- cbn [nth]. specialize (I2 i ltac:(cbn in Hi; lia)).
           replace (r + N.of_nat (S i)) with (r + 1 + N.of_nat i) by lia. exact I2.
Qed.

(** The constructor: any valid minimum settings. *)
Definition init_writes (minTotal minLevel : N) (n : N) : list step :=
  repeat (mkStep (minTotal / minLevel) 0) (N.to_nat n).

Lemma sb_inv_empty times sgs mt ml e :
  length times = 256%nat -> length sgs = 256%nat ->
  sb_inv (mkSb times sgs 0 0 0 mt ml e) [] 0.
Proof. intros; repeat split; cbn; auto; intros; lia. Qed.


Lemma sb_write_fields b s :
  sb_minTotal (sb_write b s) = sb_minTotal b /\ sb_minLevel (sb_write b s) = sb_minLevel b /\
  (sb_level b < 256 -> sb_total (sb_write b s) = add32 (sb_total b) (timeBefore s) /\
     sb_level (sb_write b s) = sb_level b + 1 /\ sb_lastError (sb_write b s) = sb_lastError b).
Proof.
  unfold sb_write, sb_length. destruct (N.ltb_spec (sb_level b) 256); cbn; repeat split; auto; try lia.
  apply add32_small. unfold two32. lia.
Qed.

Lemma sb_level_inv b W r : sb_inv b W r -> sb_level b = N.of_nat (length W) - r.
Proof. intros (_&_&_&H&_); exact H. Qed.

Lemma initfill_spec d : forall fuel b W,
  let q := sb_minTotal b / sb_minLevel b in
  sb_inv b W 0 ->
  sb_total b = N.of_nat (length W) * q ->
  (d <= fuel)%nat -> (length W + d <= 256)%nat ->
  0 < sb_minLevel b -> sb_minTotal b < two32 / 2 ->
  sb_minLevel b <= N.of_nat (length W + d) -> sb_minTotal b <= N.of_nat (length W + d) * q ->
  exists n b', (n <= d)%nat /\ sb_initfill fuel b = Some b' /\
    sb_inv b' (W ++ repeat (mkStep q 0) n) 0 /\ sb_needsFilling b' = false /\
    sb_total b' = N.of_nat (length W + n) * q /\
    sb_minTotal b' = sb_minTotal b /\ sb_minLevel b' = sb_minLevel b /\ sb_lastError b' = sb_lastError b.
Proof.
  induction d as [|d IH]; intros fuel b W q HI HT Hf HB H0 HW HL HM;
    pose proof (sb_level_inv _ _ _ HI) as HLv; rewrite N.sub_0_r in HLv.
  - exists 0%nat, b. cbn [repeat]. rewrite app_nil_r, Nat.add_0_r in *.
    assert (NF: sb_needsFilling b = false) by (unfold sb_needsFilling; rewrite HLv, HT; lia).
    split; auto. split; [destruct fuel; cbn; now rewrite NF|]. repeat split; auto; apply HI.
  - destruct (sb_needsFilling b) eqn:NF.
    + destruct fuel as [|fuel]; [lia|]. cbn [sb_initfill]. rewrite NF. fold q.
      assert (Hq: sb_minLevel b * q <= sb_minTotal b) by (apply N.mul_div_le; lia).
      assert (Hq1: q <= sb_minTotal b) by nia.
      assert (Hnw: N.of_nat (length W) * q + q < two32).
      { unfold sb_needsFilling in NF. rewrite HLv, HT in NF.
        assert (N.of_nat (length W) < sb_minLevel b \/ N.of_nat (length W) * q < sb_minTotal b) as [C|C] by lia.
        - assert ((N.of_nat (length W) + 1) * q <= sb_minLevel b * q) by (apply N.mul_le_mono_r; lia).
          unfold two32 in *; lia.
        - unfold two32 in *. lia. }
      set (s := mkStep q 0).
      pose proof (sb_write_inv b W 0 s HI ltac:(lia)) as HI'.
      destruct (sb_write_fields b s) as (F1 & F2 & F3). destruct (F3 ltac:(lia)) as (F4 & F5 & F6).
      specialize (IH fuel (sb_write b s) (W ++ [s])).
      rewrite F1, F2, F4, F6, app_length in IH. cbn [length] in IH. fold q in IH. cbv zeta in IH.
      destruct IH as (n & b' & I1 & I2 & I3 & I4 & I5 & I6 & I7 & I8); auto; try lia.
      * rewrite HT. cbn [timeBefore s]. rewrite add32_small by (fold q; lia). fold q. lia.
      * exists (S n), b'. split; [lia|]. split; auto. rewrite <- app_assoc in I3. cbn [app] in I3.
        split; auto. split; auto. split; [|auto].
        replace (length W + S n)%nat with (length W + 1 + n)%nat by lia. auto.
    + exists 0%nat, b. cbn [repeat]. rewrite app_nil_r, Nat.add_0_r.
      split; [lia|]. split; [destruct fuel; cbn; now rewrite NF|]. repeat split; auto; apply HI.
Qed.

(** The settings used by the machines (machineproperties.h): 1500 ticks, 4 entries. *)

Lemma sb0_inv : sb_construct 256 1500 4 = Some sb0 /\ sb_inv sb0 W0 0 /\ sb_needsFilling sb0 = false /\
   sb_total sb0 = 1500 /\ sb_minTotal sb0 = 1500 /\ sb_minLevel sb0 = 4.
Proof.
  split; [vm_compute; reflexivity|]. split; [|vm_compute; repeat split; reflexivity].
  pose proof (initfill_spec 4 256 (mkSb (repeat 0 256) (repeat 0 256) 0 0 0 1500 4 ev_none) []) as I.
  cbv zeta in I.
  destruct I as (n & b' & I1 & I2 & I3 & I4 & I5 & _).
  - apply sb_inv_empty; now rewrite repeat_length.
  - reflexivity.
  - lia.
  - cbn; lia.
  - cbn; lia.
  - reflexivity.
  - cbn; lia.
  - vm_compute; discriminate.
  - assert (b' = sb0) as E.
    { assert (sb_construct 256 1500 4 = Some b') as E by exact I2. unfold sb0. now rewrite E. }
    subst b'. cbn [length Nat.add] in I5.
    assert (sb_total sb0 = 1500) as T by (vm_compute; reflexivity). rewrite T in I5.
    cbn [sb_minTotal sb_minLevel] in I5. change (1500 / 4) with 375 in I5.
    assert (n = 4)%nat by lia. subst n. exact I3.
Qed.

(** *** C11 *)
Lemma gaps_nth ld rs i : (S i < length rs)%nat ->
  nth (S i) (gaps ld rs) 0 = sub32 (timeBefore (nth i rs dstep)) 1 + 1.
Proof.
  revert ld i; induction rs as [|s rs IH]; intros ld i H; [cbn in H; lia|].
  cbn [gaps nth]. destruct i.
  - destruct rs; [cbn in H; lia|]. reflexivity.
  - apply IH. cbn in H. lia.
Qed.

Lemma gaps_length ld rs : length (gaps ld rs) = length rs.
Proof. revert ld; induction rs; intro; cbn; auto. Qed.

Lemma step_timing_lemma fuel minTotal minLevel b ops ldval :
  sb_construct fuel minTotal minLevel = Some b -> sb_inv b (repeat (mkStep (minTotal/minLevel) 0) (N.to_nat (sb_level b))) 0 ->
  paced (sb_level b) ops ->
  (forall s, In (SbWrite s) ops -> 1 <= timeBefore s < two32) ->
  1 <= minTotal / minLevel < two32 ->
  let W := repeat (mkStep (minTotal/minLevel) 0) (N.to_nat (sb_level b)) ++ written ops in
  let rs := snd (sb_run b ops) in
  (forall k, (k < length rs)%nat -> signals (nth k rs dstep) = signals (nth k W dstep)) /\
  (forall k, (1 <= k)%nat -> (k < length rs)%nat ->
     nth k (gaps ldval rs) 0 = timeBefore (nth (S k) W dstep)).
Proof.
  intros HC HI HP HT HQ W rs.
  pose proof (sb_paced_run ops b _ 0 HI HP) as R.
  fold W in R. destruct (sb_run b ops) as [b' rs'] eqn:E. cbn [snd] in rs. subst rs.
  destruct R as [RI RR]. rewrite N.add_0_l in RI. split.
  - intros k Hk. destruct (RR k Hk) as [S _]. rewrite S. unfold wnth. f_equal. f_equal. lia.
  - intros k H1 H2. destruct k as [|k]; [lia|].
    rewrite gaps_nth by auto. destruct (RR k ltac:(lia)) as [_ T].
    assert (E2: timeBefore (nth k rs' dstep) = timeBefore (nth (S (S k)) W dstep)).
    { rewrite T. unfold wnth. f_equal. f_equal. lia. }
    rewrite E2.
    assert (HB: (S (S k) < length W)%nat).
    { (* the read at index k found level >= 3 *)
      destruct RI as (_&_&RL&_).
      (* total reads (>= k+2) <= writes; need k+2 < writes *)
      assert (HH: forall ops b r0 W0', sb_inv b W0' r0 -> paced (sb_level b) ops ->
         snd (sb_run b ops) <> [] ->
         (N.to_nat r0 + length (snd (sb_run b ops)) + 2 <= length (W0' ++ written ops))%nat).
      { clear. induction ops as [|o ops IH]; intros b r0 W0' HI HP HN; [now cbn in HN|].
        destruct o as [s|]; cbn [sb_run written flat_map] in *; destruct HP as [P1 P2].
        - pose proof (sb_write_inv b W0' r0 s HI P1) as HI'.
          destruct (sb_write_fields b s) as (_ & _ & F). destruct (F P1) as (_ & F5 & _).
          specialize (IH (sb_write b s) r0 (W0' ++ [s]) HI' ltac:(now rewrite F5) HN).
          rewrite <- app_assoc in IH. exact IH.
        - destruct (sb_read_inv b W0' r0 HI ltac:(lia)) as (HI' & _ & _).
          assert (E: sb_level (fst (sb_read b)) = sb_level b - 1).
          { unfold sb_read. replace (0 <? sb_level b) with true by lia. cbn.
            destruct HI as (_&_&_&_&?&_). apply sub32_small; unfold two32; lia. }
          destruct (sb_read b) as [b1 x]. cbn [fst snd] in *.
          specialize (IH b1 (r0+1) W0' HI' ltac:(now rewrite E)).
          destruct (sb_run b1 ops) as [b2 xs]. cbn [snd length app] in *.
          change (flat_map _ ops) with (written ops) in *.
          destruct xs as [|y ys].
          + cbn [length]. rewrite app_length. pose proof (sb_level_inv _ _ _ HI). destruct HI as (_&_&?&_). lia.
          + specialize (IH ltac:(discriminate)). cbn [length] in *. lia. }
      specialize (HH ops b 0 _ HI HP). rewrite E in HH. cbn [snd] in HH.
      assert (rs' <> []) as Hne by (destruct rs'; [cbn in H2; lia|discriminate]).
      specialize (HH Hne). fold W in HH. lia. }
    assert (HIn: forall s, In s W -> 1 <= timeBefore s < two32).
    { intros s I. unfold W in I. apply in_app_or in I as [I|I].
      - apply repeat_spec in I. subst s. cbn. exact HQ.
      - apply HT. unfold written in I. apply in_flat_map in I as (o & Io & Is).
        destruct o; [|contradiction]. destruct Is as [<-|[]]. exact Io. }
    specialize (HIn _ (nth_In W dstep HB)).
    rewrite sub32_small by lia. lia.
Qed.

Lemma sb_inv_err b W r e :
  sb_inv b W r -> sb_inv (mkSb (sb_time b) (sb_sig b) (sb_head b) (sb_level b) (sb_total b)
         (sb_minTotal b) (sb_minLevel b) e) W r.
Proof. intro H; exact H. Qed.

Lemma initfill_inv fuel : forall b W b',
  sb_inv b W 0 -> sb_initfill fuel b = Some b' ->
  exists n, sb_inv b' (W ++ repeat (mkStep (sb_minTotal b / sb_minLevel b) 0) n) 0 /\
    sb_minTotal b' = sb_minTotal b /\ sb_minLevel b' = sb_minLevel b.
Proof.
  induction fuel as [|fuel IH]; intros b W b' HI H; cbn [sb_initfill] in H;
    destruct (sb_needsFilling b); try discriminate.
  - inversion H; subst. exists 0%nat. cbn. now rewrite app_nil_r.
  - set (s := mkStep (sb_minTotal b / sb_minLevel b) 0) in *.
    destruct (sb_write_fields b s) as (F1 & F2 & _).
    destruct (N.lt_ge_cases (sb_level b) 256) as [C|C].
    + pose proof (sb_write_inv b W 0 s HI C) as HI'.
      destruct (IH _ _ _ HI' H) as (n & I & J). rewrite F1, F2 in *. fold s in I.
      exists (S n). rewrite <- app_assoc in I. cbn [repeat app] in *. auto.
    + rewrite (sb_write_full b s C) in *.
      destruct (IH _ _ _ (sb_inv_err b W 0 stepBufferOverflow HI) H) as (n & I & J).
      exists n. exact (conj I J).
  - inversion H; subst. exists 0%nat. cbn. now rewrite app_nil_r.
Qed.

Lemma initialize_inv fuel b0 b : sb_initialize fuel b0 = Some b ->
  length (sb_time b0) = 256%nat -> length (sb_sig b0) = 256%nat ->
  sb_inv b (repeat (mkStep (sb_minTotal b0 / sb_minLevel b0) 0) (N.to_nat (sb_level b))) 0.
Proof.
  intros H L1 L2. unfold sb_initialize in H.
  pose proof (initfill_inv _ _ [] _ (sb_inv_empty _ _ _ _ _ L1 L2) H) as (n & I & _).
  cbn [app sb_minTotal sb_minLevel] in I.
  pose proof (sb_level_inv _ _ _ I) as L. rewrite repeat_length in L.
  replace (N.to_nat (sb_level b)) with n by lia. exact I.
Qed.

Lemma construct_inv fuel mt ml b : sb_construct fuel mt ml = Some b ->
  sb_inv b (repeat (mkStep (mt / ml) 0) (N.to_nat (sb_level b))) 0.
Proof.
  intro H. apply (initialize_inv _ _ _ H eq_refl eq_refl).
Qed.

(** *** C12: wrong timing without any reported error. *)

Lemma late_lemma :
  let '(b, rs) := sb_run sb0 late_ops in
  sb_lastError b = ev_none /\
  (* the third interrupt programs a period of 2^32 ticks instead of 200 *)
  nth 3 (gaps 100 rs) 0 = two32 /\ timeBefore (nth 4 (W0 ++ written late_ops) dstep) = 100.
Proof. vm_compute. repeat split; reflexivity. Qed.

(** *** C13: accounting. *)
Definition sum_first_two (W : list step) : N := sum_times (firstn 2 W).

Lemma sum_times_app a b : sum_times (a ++ b) = sum_times a + sum_times b.
Proof. unfold sum_times. induction a; cbn; auto. rewrite IHa. lia. Qed.

(** In the paced regime the reported time is that of the first two writes ever
    plus all pending times except the two next ones. *)
Definition acct (b : stepbuf) (W : list step) (r : N) : Prop :=
  sb_total b = w32 (sum_times (firstn 2 W) + sum_times (skipn (N.to_nat r + 2) W)).

Lemma w32_idem a b : w32 (w32 a + b) = w32 (a + b).
Proof. unfold w32. rewrite N.add_mod_idemp_l; auto. discriminate. Qed.

Lemma acct_write b W r s :
  sb_inv b W r -> acct b W r -> 2 <= N.of_nat (length W) - r -> sb_level b < 256 -> acct (sb_write b s) (W ++ [s]) r.
Proof.
  intros HI HA H2 HL. unfold acct in *.
  destruct (sb_write_fields b s) as (_ & _ & F). destruct (F HL) as (F4 & _ & _).
  rewrite F4, HA. unfold add32. rewrite w32_idem.
  rewrite firstn_app, skipn_app.
  replace (2 - length W)%nat with 0%nat by lia.
  replace (N.to_nat r + 2 - length W)%nat with 0%nat by lia.
  cbn [firstn skipn]. rewrite app_nil_r, sum_times_app. change (sum_times [s]) with (timeBefore s + 0). f_equal. lia.
Qed.

Lemma skipn_nth {A} (d : A) k l : (k < length l)%nat -> skipn k l = nth k l d :: skipn (S k) l.
Proof. revert k; induction l; destruct k; cbn; intros; try lia; auto. apply IHl. lia. Qed.

Lemma acct_read b W r :
  sb_inv b W r -> acct b W r -> 3 <= sb_level b -> (forall s, In s W -> timeBefore s < two32) ->
  acct (fst (sb_read b)) W (r + 1).
Proof.
  intros HI HA HL HW. destruct (sb_read_inv b W r HI ltac:(lia)) as (_ & _ & T). specialize (T HL).
  pose proof (sb_level_inv _ _ _ HI) as HLv.
  unfold acct in *. revert T. unfold sb_read. replace (0 <? sb_level b) with true by lia.
  cbn [fst snd timeBefore sb_total]. intro T. rewrite T, HA.
  rewrite (skipn_nth dstep (N.to_nat r + 2)) by lia.
  replace (N.to_nat (r + 1) + 2)%nat with (S (N.to_nat r + 2)) by lia.
  unfold wnth. replace (N.to_nat (r + 2)) with (N.to_nat r + 2)%nat by lia.
  set (x := nth (N.to_nat r + 2) W dstep).
  assert (timeBefore x < two32) by (apply HW, nth_In; lia).
  cbn [sum_times fold_right]. fold (sum_times (skipn (S (N.to_nat r + 2)) W)).
  unfold sub32, w32, two32 in *. lia.
Qed.

Lemma acct_run ops : forall b W r,
  sb_inv b W r -> acct b W r -> paced (sb_level b) ops -> 2 <= sb_level b ->
  (forall s, In s (W ++ written ops) -> timeBefore s < two32) ->
  let '(b', rs) := sb_run b ops in
  acct b' (W ++ written ops) (r + N.of_nat (length rs)) /\
  sb_inv b' (W ++ written ops) (r + N.of_nat (length rs)) /\ 2 <= sb_level b' /\
  sb_minTotal b' = sb_minTotal b.
Proof.
  induction ops as [|o ops IH]; intros b W r HI HA HP H2 HT.
  - cbn. rewrite app_nil_r, N.add_0_r. auto.
  - destruct o as [s|]; cbn [sb_run written flat_map] in *; destruct HP as [P1 P2];
    change (flat_map _ ops) with (written ops) in *.
    + pose proof (sb_write_inv b W r s HI P1) as HI'. pose proof (sb_level_inv _ _ _ HI) as HL.
      pose proof (acct_write b W r s HI HA ltac:(lia) P1) as HA'.
      destruct (sb_write_fields b s) as (F1 & F2 & F). destruct (F P1) as (_ & F5 & _).
      specialize (IH _ _ _ HI' HA' ltac:(now rewrite F5) ltac:(lia)).
      rewrite <- app_assoc in IH. cbn [app] in *. specialize (IH HT).
      destruct (sb_run (sb_write b s) ops). rewrite <- F1. exact IH.
    + destruct (sb_read_inv b W r HI ltac:(lia)) as (HI' & _ & _).
      cbn [app] in *.
      pose proof (acct_read b W r HI HA ltac:(lia) ltac:(intros; apply HT, in_or_app; auto)) as HA'.
      assert (E: sb_level (fst (sb_read b)) = sb_level b - 1).
      { unfold sb_read. replace (0 <? sb_level b) with true by lia. cbn.
        destruct HI as (_&_&_&_&?&_). apply sub32_small; unfold two32; lia. }
      assert (EM: sb_minTotal (fst (sb_read b)) = sb_minTotal b).
      { unfold sb_read. destruct (_ <? _); reflexivity. }
      destruct (sb_read b) as [b1 x]. cbn [fst] in *.
      specialize (IH b1 W (r+1) HI' HA' ltac:(now rewrite E) ltac:(lia) HT).
      destruct (sb_run b1 ops) as [b2 xs]. rewrite EM in IH. cbn [length].
      replace (r + N.of_nat (S (length xs))) with (r + 1 + N.of_nat (length xs)) by lia. exact IH.
Qed.

Lemma sb0_acct : acct sb0 W0 0.
Proof. vm_compute. reflexivity. Qed.

(** True remaining time: sum of timeBefore of the entries not yet output. *)

(** Two or more pending: remaining = t_r + t_{r+1} + rest. *)
Lemma sum_skip W r : (r + 2 <= length W)%nat ->
  sum_times (skipn r W) = timeBefore (nth r W dstep) + timeBefore (nth (S r) W dstep) + sum_times (skipn (r + 2) W).
Proof.
  intro H. rewrite (skipn_nth dstep r) by lia. rewrite (skipn_nth dstep (S r)) by lia.
  replace (r + 2)%nat with (S (S r)) by lia.  unfold sum_times. cbn [fold_right]. lia.
Qed.

Lemma written_total_lemma ops :
  paced 4 ops ->
  (forall s, In s (written ops) -> timeBefore s < two32) ->
  let W := W0 ++ written ops in
  let '(b, rs) := sb_run sb0 ops in
  let k := length rs in
  remaining W k + 750 < two32 ->
  sb_total b + timeBefore (nth k W dstep) + timeBefore (nth (S k) W dstep)
    = remaining W k + 750.
Proof.
  intros HP HT W.
  destruct sb0_inv as (_ & HI & _ & _ & _ & _).
  assert (HL0: sb_level sb0 = 4) by (vm_compute; reflexivity).
  rewrite <- HL0 in HP.
  pose proof (acct_run ops sb0 W0 0 HI sb0_acct HP ltac:(rewrite HL0; lia)) as R.
  assert (HTW: forall s, In s (W0 ++ written ops) -> timeBefore s < two32).
  { intros s I. apply in_app_or in I as [I|I]; [|auto]. apply repeat_spec in I. subst; reflexivity. }
  specialize (R HTW). destruct (sb_run sb0 ops) as [b rs]. cbv zeta. intro HS.
  destruct R as (RA & RI & RL & _). rewrite N.add_0_l in *.
  pose proof (sb_level_inv _ _ _ RI) as L. unfold acct in RA. fold W in RA, L.
  rewrite Nat2N.id in RA.
  assert (HLW: (length rs + 2 <= length W)%nat) by lia.
  unfold remaining. rewrite (sum_skip W (length rs) HLW).
  assert (F2: sum_times (firstn 2 W) = 750) by reflexivity.
  rewrite RA, F2.
  unfold remaining in HS. rewrite (sum_skip W (length rs) HLW) in HS. rewrite w32_small by lia. lia.
Qed.

(** C13 counterexample: enough "reported" time, half the real time. *)

Fixpoint pacedb (lvl : N) (ops : list sb_op) : bool :=
  match ops with
  | [] => true
  | SbWrite _ :: r => (lvl <? 256) && pacedb (lvl + 1) r
  | SbRead :: r => (3 <=? lvl) && pacedb (lvl - 1) r
  end.
Lemma pacedb_ok ops : forall l, pacedb l ops = true -> paced l ops.
Proof.
  induction ops as [|o r IH]; intros l H; cbn [pacedb paced] in *; auto.
  destruct o; apply andb_prop in H as [A B]; split; auto; lia.
Qed.

Lemma overcount_lemma :
  paced 4 overcount_ops /\
  let '(b, rs) := sb_run sb0 overcount_ops in
  sb_needsFilling b = false /\ sb_total b = 1500 /\
  remaining (W0 ++ written overcount_ops) (length rs) = 760.
Proof. split; [apply pacedb_ok; vm_compute; reflexivity|vm_compute; repeat split; reflexivity]. Qed.

(** Lower bound that does hold: at least the configured time minus 750 ticks. *)
Lemma remaining_lower_lemma ops :
  paced 4 ops ->
  (forall s, In s (written ops) -> timeBefore s < two32) ->
  let W := W0 ++ written ops in
  let '(b, rs) := sb_run sb0 ops in
  remaining W (length rs) + 750 < two32 ->
  sb_needsFilling b = false ->
  750 <= remaining W (length rs) /\ (4 <= length W - length rs)%nat.
Proof.
  intros HP HT W. pose proof (written_total_lemma ops HP HT) as T. fold W in T.
  destruct sb0_inv as (_ & HI & _ & _ & M1 & M2).
  assert (HL0: sb_level sb0 = 4) by (vm_compute; reflexivity).
  assert (HTW: forall s, In s (W0 ++ written ops) -> timeBefore s < two32).
  { intros s I. apply in_app_or in I as [I|I]; [|auto]. apply repeat_spec in I. subst; reflexivity. }
  pose proof (acct_run ops sb0 W0 0 HI sb0_acct ltac:(now rewrite HL0) ltac:(rewrite HL0; lia) HTW) as R.
  assert (ML: sb_minLevel (fst (sb_run sb0 ops)) = 4).
  { rewrite <- M2. generalize sb0. clear. induction ops as [|o r IH]; intro b; cbn; auto.
    destruct o as [s|].
    - rewrite IH. apply sb_write_fields.
    - destruct (sb_read b) as [b1 x] eqn:E. specialize (IH b1). destruct (sb_run b1 r); cbn in *.
      rewrite IH. unfold sb_read in E. destruct (_ <? _); inversion E; reflexivity. }
  destruct (sb_run sb0 ops) as [b rs]. cbv zeta in *. cbn [fst] in ML.
  destruct R as (_ & RI & _ & RM). intros HS NF. specialize (T HS).
  pose proof (sb_level_inv _ _ _ RI) as L. rewrite N.add_0_l in L. fold W in L.
  unfold sb_needsFilling in NF. rewrite RM, M1, ML in NF. lia.
Qed.

(** *** C14 *)
Definition sq_ref (b : stepbuf) (q : sqspec) : Prop :=
  length (sb_time b) = 256%nat /\ length (sb_sig b) = 256%nat /\ sb_head b < 256 /\ sb_level b <= 256 /\
  sq_pending q = contents 0 (sb_sig b) 256 (sb_head b) (sb_level b) /\ sq_error q = sb_lastError b.

Lemma sq_step_refines b q o : sq_ref b q ->
  snd (sbq_step b o) = snd (sq_step q o) /\ sq_ref (fst (sbq_step b o)) (fst (sq_step q o)).
Proof.
  intros (L1 & L2 & H & V & P & E).
  assert (LP: length (sq_pending q) = N.to_nat (sb_level b)) by (rewrite P; apply contents_length).
  destruct o as [s| | |]; cbn [sbq_step sq_step].
  - unfold sb_write, sb_length. destruct (N.ltb_spec (sb_level b) 256).
    + replace (length (sq_pending q) <? 256)%nat with true by lia. cbn [fst snd]. split; auto.
      rewrite !(add32_small (sb_head b)), !(add32_small (sb_level b)) by (unfold two32; lia).
      unfold sq_ref; cbn [sb_time sb_sig sb_head sb_level sb_lastError sq_pending sq_error].
      rewrite !rset_length, contents_push, P; auto; [repeat split; auto; lia|rewrite L2; reflexivity].
    + replace (length (sq_pending q) <? 256)%nat with false by lia. cbn. split; auto.
      repeat split; auto.
  - unfold sb_read. destruct (N.ltb_spec 0 (sb_level b)) as [C|C].
    + rewrite (contents_pop 0 (sb_sig b) 256 (sb_head b) (sb_level b) ltac:(rewrite L2; reflexivity) H C) in P.
      rewrite P. cbn. split; auto. unfold sb_length.
      rewrite add32_small, sub32_small by (unfold two32; lia).
      unfold sq_ref; cbn [sb_time sb_sig sb_head sb_level sb_lastError sq_pending sq_error].
      repeat split; auto; lia.
    + assert (Z: sb_level b = 0) by lia. assert (P0: sq_pending q = []) by (rewrite P, Z; reflexivity).
      rewrite P0. cbn. split; auto. unfold sq_ref; cbn. rewrite Z. repeat split; auto; lia.
  - cbn. split; [f_equal; lia|]. repeat split; auto.
  - cbn. split; [now rewrite E|]. repeat split; auto.
Qed.

Lemma sq_run_refines ops : forall b q, sq_ref b q ->
  snd (sbq_run b ops) = snd (sq_run q ops).
Proof.
  induction ops as [|o r IH]; intros b q H; cbn; auto.
  destruct (sq_step_refines b q o H) as [E R].
  destruct (sbq_step b o), (sq_step q o); cbn in *. specialize (IH _ _ R).
  destruct (sbq_run s r), (sq_run s1 r); cbn in *. congruence.
Qed.

Lemma sb_inv_ref b W r : sb_inv b W r ->
  sq_ref b (mkSq (contents 0 (sb_sig b) 256 (sb_head b) (sb_level b)) (sb_lastError b)).
Proof.
  intros (A & B & C & D & E & F & _). repeat split; cbn; auto. rewrite F. apply N.mod_lt. discriminate.
Qed.

Lemma zero_signals b W : sb_inv b W 0 -> (forall s, In s W -> signals s = 0) ->
  contents 0 (sb_sig b) 256 (sb_head b) (sb_level b) = repeat 0 (N.to_nat (sb_level b)).
Proof.
  intros HI HZ. pose proof HI as (A & B & C & D & E & F & G & _).
  apply nth_ext with (d := 0) (d' := 0).
  - now rewrite contents_length, repeat_length.
  - intros n Hn. rewrite contents_length in Hn. rewrite nth_contents, nth_repeat by auto.
    assert (F': sb_head b = 0) by (rewrite F; reflexivity).
    rewrite F', N.add_0_l, G by lia.
    unfold wnth. apply HZ, nth_In. lia.
Qed.

Lemma stepbuffer_ring_lemma fuel minTotal minLevel b ops :
  sb_construct fuel minTotal minLevel = Some b ->
  snd (sbq_run b ops) = snd (sq_run (mkSq (repeat 0 (N.to_nat (sb_level b))) (sb_lastError b)) ops) /\
  sb_needsFilling b = false.
Proof.
  intro H. pose proof (construct_inv _ _ _ _ H) as HI. split.
  - rewrite (sq_run_refines ops b _ (sb_inv_ref _ _ _ HI)).
    rewrite (zero_signals _ _ HI); auto. intros s I. apply repeat_spec in I. now subst.
  - clear HI. unfold sb_construct, sb_initialize in H. revert H.
    generalize (mkSb (sb_time (mkSb (repeat 0 256) (repeat 0 256) 0 0 0 minTotal minLevel ev_none))
      (sb_sig (mkSb (repeat 0 256) (repeat 0 256) 0 0 0 minTotal minLevel ev_none)) 0 0 0
      (sb_minTotal (mkSb (repeat 0 256) (repeat 0 256) 0 0 0 minTotal minLevel ev_none))
      (sb_minLevel (mkSb (repeat 0 256) (repeat 0 256) 0 0 0 minTotal minLevel ev_none))
      (sb_lastError (mkSb (repeat 0 256) (repeat 0 256) 0 0 0 minTotal minLevel ev_none))).
    induction fuel as [|f IH]; intros b0 H; cbn [sb_initfill] in H;
      destruct (sb_needsFilling b0) eqn:E; try discriminate; eauto; congruence.
Qed.

(** The constructor terminates for valid minimum settings. *)
Lemma construct_terminates_lemma n minTotal minLevel :
  0 < minLevel -> (n <= 256)%nat -> minTotal < two32 / 2 ->
  minLevel <= N.of_nat n -> minTotal <= N.of_nat n * (minTotal / minLevel) ->
  exists b, sb_construct n minTotal minLevel = Some b.
Proof.
  intros H1 H2 H3 H4 H5.
  pose proof (initfill_spec n n (mkSb (repeat 0 256) (repeat 0 256) 0 0 0 minTotal minLevel ev_none) []) as I.
  cbv zeta in I. cbn [sb_minTotal sb_minLevel] in I.
  destruct I as (k & b' & _ & I2 & _); auto.
  - apply sb_inv_empty; reflexivity.
  - exists b'. exact I2.
Qed.

(** ... and it never terminates when minimumTotalTime < minimumLevel (the
    integer quotient is then 0), unless both are trivial. *)
Lemma construct_diverges_lemma fuel minTotal minLevel :
  0 < minTotal -> minTotal < minLevel ->
  sb_construct fuel minTotal minLevel = None.
Proof.
  intros H1 H2. unfold sb_construct, sb_initialize. cbn [sb_minTotal sb_minLevel sb_time sb_sig sb_lastError].
  assert (G: forall fuel b, sb_minTotal b = minTotal -> sb_minLevel b = minLevel -> sb_total b = 0 ->
     sb_initfill fuel b = None).
  { clear fuel. induction fuel as [|f IH]; intros b A B C;
    assert (NF: sb_needsFilling b = true) by (unfold sb_needsFilling; rewrite A, C; lia);
    cbn [sb_initfill]; rewrite NF; auto.
    apply IH; try apply sb_write_fields; auto;
    try (rewrite (proj1 (sb_write_fields b _)); auto);
    try (rewrite (proj1 (proj2 (sb_write_fields b _))); auto).
    rewrite A, B, N.div_small by auto.
    unfold sb_write, sb_length. destruct (_ <? _); cbn; auto. now rewrite C. }
  apply G; reflexivity.
Qed.

(** *** C54 *)

Lemma sum_times_lower m l : (forall s, In s l -> m <= timeBefore s) -> m * N.of_nat (length l) <= sum_times l.
Proof.
  induction l as [|s l IH]; intro H; [cbn; lia|].
  unfold sum_times; cbn [fold_right length]. fold (sum_times l).
  specialize (IH ltac:(intros; apply H; now right)). specialize (H s ltac:(now left)). lia.
Qed.
Lemma sum_times_upper m l : (forall s, In s l -> timeBefore s <= m) -> sum_times l <= m * N.of_nat (length l).
Proof.
  induction l as [|s l IH]; intro H; [cbn; lia|].
  unfold sum_times; cbn [fold_right length]. fold (sum_times l).
  specialize (IH ltac:(intros; apply H; now right)). specialize (H s ltac:(now left)). lia.
Qed.

Lemma In_skipn {A} (x : A) n l : In x (skipn n l) -> In x l.
Proof. intro H. rewrite <- (firstn_skipn n l). apply in_or_app; now right. Qed.

Lemma fill_inv ops : forall b W r,
  sb_inv b W r -> acct b W r -> 2 <= sb_level b ->
  sb_minTotal b = 1500 -> sb_minLevel b = 4 -> sb_lastError b = ev_none ->
  sum_times (firstn 2 W) = 750 -> (2 <= length W)%nat ->
  (forall s, In s W -> 3 <= timeBefore s <= 1000000) ->
  (forall s, In (FIter s) ops -> 3 <= timeBefore s <= 1000000) ->
  irq_paced b ops ->
  let b' := fold_left fill_step ops b in
  sb_lastError b' = ev_none /\ sb_level b' <= 256 /\ 2 <= sb_level b'.
Proof.
  induction ops as [|o ops IH]; intros b W r HI HA H2 M1 M2 HE F2 HW Hpend Hops HP; cbn [fold_left].
  - repeat split; auto. apply HI.
  - destruct HP as [P1 P2].
    pose proof (sb_level_inv _ _ _ HI) as L. pose proof HI as (_&_&_&_&LM&_).
    destruct o as [s|]; cbn [fill_step] in *.
    + destruct (sb_needsFilling b) eqn:NF.
      * assert (HL: sb_level b < 256).
        { destruct (N.lt_ge_cases (sb_level b) 256); auto. exfalso.
          unfold sb_needsFilling in NF. rewrite M1, M2 in NF. unfold acct in HA.
          assert (LS: length (skipn (N.to_nat r + 2) W) = 254%nat) by (rewrite skipn_length; lia).
          pose proof (sum_times_lower 3 (skipn (N.to_nat r + 2) W)
             ltac:(intros; apply Hpend; eapply In_skipn; eauto)) as SL.
          pose proof (sum_times_upper 1000000 (skipn (N.to_nat r + 2) W)
             ltac:(intros; apply Hpend; eapply In_skipn; eauto)) as SU.
          rewrite LS in SL, SU. rewrite F2, w32_small in HA by (unfold two32; lia). lia. }
        pose proof (sb_write_inv b W r s HI HL) as HI'.
        pose proof (acct_write b W r s HI HA ltac:(lia) HL) as HA'.
        destruct (sb_write_fields b s) as (G1 & G2 & G3). destruct (G3 HL) as (_ & G5 & G6).
        apply (IH _ (W ++ [s]) r); auto; try congruence; try lia.
        -- rewrite firstn_app. replace (2 - length W)%nat with 0%nat by lia. cbn [firstn]. now rewrite app_nil_r.
        -- rewrite app_length; lia.
        -- intros x I. apply in_app_or in I as [I|[<-|[]]]; auto. apply Hops; now left.
        -- intros x I. apply Hops; now right.
      * apply (IH _ W r); auto. intros x I. apply Hops; now right.
    + destruct (sb_read_inv b W r HI ltac:(lia)) as (HI' & _ & _).
      pose proof (acct_read b W r HI HA ltac:(lia)
        ltac:(intros x I; pose proof (Hpend x I); unfold two32; lia)) as HA'.
      assert (E: sb_level (fst (sb_read b)) = sb_level b - 1 /\ sb_minTotal (fst (sb_read b)) = sb_minTotal b
        /\ sb_minLevel (fst (sb_read b)) = sb_minLevel b /\ sb_lastError (fst (sb_read b)) = sb_lastError b).
      { unfold sb_read. replace (0 <? sb_level b) with true by lia. cbn.
        repeat split. apply sub32_small; unfold two32; lia. }
      destruct E as (E1 & E2 & E3 & E4).
      apply (IH _ W (r + 1)); auto; try congruence; try lia. intros x I. apply Hops; now right.
Qed.

Lemma fill_no_drop_lemma ops :
  (forall s, In (FIter s) ops -> 3 <= timeBefore s <= 1000000) ->
  irq_paced sb0 ops ->
  sb_lastError (fold_left fill_step ops sb0) = ev_none.
Proof.
  intros H1 H2. destruct sb0_inv as (_ & HI & _ & _ & M1 & M2).
  apply (fill_inv ops sb0 W0 0); auto.
  - vm_compute; discriminate.
  - cbn. lia.
  - intros s I. apply repeat_spec in I. subst. cbn. lia.
Qed.

(** A stream with a signal change every other tick overflows the buffer. *)

Lemma dense_drop_lemma :
  irq_paced sb0 dense_ops /\ sb_lastError (fold_left fill_step dense_ops sb0) = stepBufferOverflow.
Proof.
  split; [|vm_compute; reflexivity].
  assert (G: forall ops b, (fix f b ops := match ops with [] => true
     | o :: r => (match o with FIrq => 3 <=? sb_level b | _ => true end) && f (fill_step b o) r end) b ops = true
     -> irq_paced b ops).
  { induction ops as [|o r IH]; intros b H; cbn [irq_paced]; auto.
    apply andb_prop in H as [A B]. split; [destruct o; auto; lia|apply IH, B]. }
  apply G. vm_compute. reflexivity.
Qed.

(** Non-vacuity for the timing theorem: a paced schedule that wraps. *)
Fixpoint alternate (n : nat) : list sb_op :=
  match n with
  | O => []
  | S k => SbWrite (mkStep (N.of_nat n + 1) (N.of_nat n mod 64)) :: SbRead :: alternate k
  end.
Example alternate_paced : paced (sb_level sb0) (alternate 600) /\
  length (snd (sb_run sb0 (alternate 600))) = 600%nat.
Proof. split; [apply pacedb_ok; vm_compute; reflexivity|vm_compute; reflexivity]. Qed.

Lemma step_timing_full_lemma : forall fuel minTotal minLevel b ops ldval,
  sb_construct fuel minTotal minLevel = Some b ->
  paced (sb_level b) ops ->
  (forall s, In (SbWrite s) ops -> 1 <= timeBefore s < two32) ->
  1 <= minTotal / minLevel < two32 ->
  let W := repeat (mkStep (minTotal / minLevel) 0) (N.to_nat (sb_level b)) ++ written ops in
  let rs := snd (sb_run b ops) in
  (forall k, (k < length rs)%nat -> signals (nth k rs dstep) = signals (nth k W dstep)) /\
  (forall k, (1 <= k)%nat -> (k < length rs)%nat ->
     nth k (gaps ldval rs) 0 = timeBefore (nth (S k) W dstep)).
Proof.
  intros fuel mt ml b ops ldval H P A B. apply (step_timing_lemma fuel); auto. eapply construct_inv; eauto.
Qed.

Lemma late_refuted_lemma :
  exists ops k,
  let '(b, rs) := sb_run sb0 ops in
  sb_lastError b = ev_none /\ (1 <= k < length rs)%nat /\
  nth k (gaps 100 rs) 0 = two32 /\ timeBefore (nth (S k) (W0 ++ written ops) dstep) = 100.
Proof. exists late_ops, 3%nat. vm_compute. repeat split; auto; lia. Qed.

Lemma overcount_refuted_lemma :
  exists ops, paced 4 ops /\
  let '(b, rs) := sb_run sb0 ops in
  sb_needsFilling b = false /\ sb_total b = 1500 /\
  remaining (W0 ++ written ops) (length rs) = 760.
Proof. exists overcount_ops. exact overcount_lemma. Qed.

Lemma fill_drops_refuted_lemma :
  exists ops, irq_paced sb0 ops /\
    (forall s, In (FIter s) ops -> 1 <= timeBefore s) /\
    sb_lastError (fold_left fill_step ops sb0) = stepBufferOverflow.
Proof.
  exists dense_ops. destruct dense_drop_lemma as [A B]. split; [exact A|split; [|exact B]].
  intros s I. unfold dense_ops in I.
  apply in_app_or in I as [[I|[]]|I]; [discriminate|].
  apply in_app_or in I as [I|I]; [apply repeat_spec in I; inversion I; cbn; lia|].
  apply in_app_or in I as [[I|[]]|I]; [discriminate|].
  apply repeat_spec in I; inversion I; cbn; lia.
Qed.
