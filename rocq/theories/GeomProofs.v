(** Trajectory geometry and machine limits over the reals: C30, C32. *)
Require Import List Arith NArith ZArith Bool Reals Lra Lia.
From Verif Require Import Base Num NumR MotionModel CtrlModel ProfileSpec ProfileProofs PlanProofs GeomSpec.
Import ListNotations.
Open Scope R_scope.
Notation A := x_arith.

Lemma lt3 (Q : nat -> Prop) : Q 0%nat -> Q 1%nat -> Q 2%nat -> forall i, (i < 3)%nat -> Q i.
Proof. intros H0 H1 H2 i Hi. destruct i as [|[|[|i]]]; auto; lia. Qed.

Lemma sq_nonneg x : 0 <= sq x.
Proof. unfold sq. nra. Qed.

Section Geom.
Variables (m : smotion xr) (P : path).
Hypothesis DS : describes m P.
Hypothesis OK : path_ok P.

Let L := pa_len P.
Lemma L_pos : 0 < L. Proof. apply OK. Qed.

Lemma is_arc_eq i : (i < 3)%nat -> is_arc (sm_arc0 m) (sm_arc1 m) i = on_arc P i.
Proof.
  intro Hi. destruct DS as (_ & _ & _ & H). unfold is_arc, on_arc. destruct (pa_arc P) as [a|].
  - destruct H as (-> & -> & _). auto.
  - destruct H as (-> & ->). destruct i as [|[|[|i]]]; auto; lia.
Qed.

Lemma dir_eq i : (i < 3)%nat -> nthF A (t_dir (traj_set A m)) i = XF (share P i).
Proof.
  pose proof L_pos as LP. destruct DS as (HL & HS & HD & _).
  assert (K : forall i, (i < 3)%nat ->
    (if is_arc (sm_arc0 m) (sm_arc1 m) i then nofZ (aF A) 1 else d2f A (ndiv (aD A) (nthD A (sm_delta m) i) (sm_length m))) = XF (share P i)).
  { intros k Hk. rewrite is_arc_eq by auto. unfold share. destruct (on_arc P k); [reflexivity|].
    rewrite HL, HD by auto. cbn [d2f aD x_arith ndiv x_num]. rewrite xdiv_nz by (fold L; lra). reflexivity. }
  revert i. apply lt3; cbn [t_dir traj_set map axes nthF nth]; unfold nthF; cbn [nth]; apply K; lia.
Qed.

Definition turn i : R := match pa_arc P with Some a => if on_arc P i then ar_da a / L else pa_delta P i / L | None => pa_delta P i / L end.
Lemma dRT_eq i : (i < 3)%nat -> nthF A (t_dRT (traj_set A m)) i = XF (turn i).
Proof.
  pose proof L_pos as LP. destruct DS as (HL & HS & HD & HA).
  assert (K : forall i, (i < 3)%nat ->
    (if is_arc (sm_arc0 m) (sm_arc1 m) i then d2f A (ndiv (aD A) (sm_deltaAngle m) (sm_length m))
     else d2f A (ndiv (aD A) (nthD A (sm_delta m) i) (sm_length m))) = XF (turn i)).
  { intros k Hk. rewrite is_arc_eq by auto. unfold turn, on_arc in *. destruct (pa_arc P) as [a|].
    - destruct HA as (A0 & A1 & _ & _ & _ & _ & DA). destruct ((k =? ar_0 a)%nat || (k =? ar_1 a)%nat);
      rewrite ?DA, HL, ?HD by auto; cbn [d2f aD x_arith ndiv x_num]; rewrite xdiv_nz by (fold L; lra); reflexivity.
    - rewrite HL, HD by auto. cbn [d2f aD x_arith ndiv x_num]. rewrite xdiv_nz by (fold L; lra). reflexivity. }
  revert i. apply lt3; cbn [t_dRT traj_set map axes nthF nth]; unfold nthF; cbn [nth]; apply K; lia.
Qed.

Lemma position_eq o i s : mo_traj o = traj_set A m -> (i < 3)%nat ->
  mo_position A o i (XF s) = XF (path_pos P i s).
Proof.
  intros HT Hi. unfold mo_position. rewrite HT. rewrite dRT_eq by auto.
  assert (HST : nthF A (t_start (traj_set A m)) i = XF (pa_start P i)).
  { destruct DS as (_ & HS & _). revert i Hi. apply lt3; unfold nthF; cbn [t_start traj_set map axes nth]; apply HS; lia. }
  rewrite HST. destruct DS as (_ & _ & _ & HA). pose proof L_pos.
  cbn [t_arc0 t_arc1 t_startAngle t_center0 t_center1 t_radius traj_set].
  unfold path_pos, turn, on_arc, linear_pos. fold L. destruct (pa_arc P) as [a|].
  - destruct HA as (-> & -> & E0 & E1 & ER & ES & ED). rewrite E0, E1, ER, ES.
    destruct (i =? ar_0 a)%nat; cbn [orb].
    + cbn. do 4 f_equal. field. lra.
    + destruct (i =? ar_1 a)%nat; cbn.
      * do 4 f_equal. field. lra.
      * f_equal. field. lra.
  - destruct HA as (-> & ->). assert ((i =? 3)%nat = false) as -> by (apply Nat.eqb_neq; lia).
    cbn. f_equal. field. lra.
Qed.

Lemma not_moving o i : mo_traj o = traj_set A m -> (i < 3)%nat -> mo_isMoving A o i = false ->
  forall s, path_pos P i s = path_pos P i 0.
Proof.
  intros HT Hi. unfold mo_isMoving. rewrite HT, dRT_eq by auto. cbn [aF neqb x_arith x_num xeqb nofZ].
  unfold reqb. destruct (Req_EM_T (turn i) 0) as [Z|]; [|discriminate]. intros _ s. pose proof L_pos.
  unfold turn, path_pos, linear_pos, on_arc in *. fold L. destruct (pa_arc P) as [a|].
  - destruct (i =? ar_0 a)%nat; cbn [orb] in Z.
    + do 3 f_equal. replace (ar_da a * (s / L)) with (ar_da a / L * s) by (field; lra).
      replace (ar_da a * (0 / L)) with (ar_da a / L * 0) by (field; lra). rewrite Z. ring.
    + destruct (i =? ar_1 a)%nat.
      * do 3 f_equal. replace (ar_da a * (s / L)) with (ar_da a / L * s) by (field; lra).
        replace (ar_da a * (0 / L)) with (ar_da a / L * 0) by (field; lra). rewrite Z. ring.
      * replace (pa_delta P i * (s / L)) with (pa_delta P i / L * s) by (field; lra).
        replace (pa_delta P i * (0 / L)) with (pa_delta P i / L * 0) by (field; lra). rewrite Z. ring.
  - replace (pa_delta P i * (s / L)) with (pa_delta P i / L * s) by (field; lra).
    replace (pa_delta P i * (0 / L)) with (pa_delta P i / L * 0) by (field; lra). rewrite Z. ring.
Qed.

(** *** Limits *)
(** [x] is the smallest of the limits in [l] (none of them NaN or negative). *)
Definition smallest (l : list xr) (x : xr) : Prop :=
  (x = XP /\ forall y, In y l -> y = XP) \/
  (exists v, x = XF v /\ In (XF v) l /\ forall y, In y l -> y = XP \/ exists w, y = XF w /\ v <= w).

Lemma smallest_step l x y : (y = XP \/ exists w, y = XF w) -> smallest l x ->
  smallest (y :: l) (if xltb y x then y else x).
Proof.
  intros HY [(-> & H)|(v & -> & I & H)].
  - destruct HY as [->|(w & ->)]; cbn [xltb].
    + left. split; auto. intros z [<-|]; auto.
    + right. exists w. split; auto. split; [left; auto|]. intros z [<-|Hz]; [right; exists w; split; auto; lra|left; auto].
  - destruct HY as [->|(w & ->)]; cbn [xltb].
    + right. exists v. split; auto. split; [right; auto|]. intros z [<-|Hz]; auto.
    + rewrite rltb_if. destruct (Rlt_dec w v).
      * right. exists w. split; auto. split; [left; auto|]. intros z [<-|Hz]; [right; exists w; split; auto; lra|].
        destruct (H z Hz) as [|(q & -> & Q)]; auto. right. exists q. split; auto. lra.
      * right. exists v. split; auto. split; [right; auto|]. intros z [<-|Hz]; auto. right. exists w. split; auto. lra.
Qed.

Lemma lim_value c x : c <> 0 -> xabs (xdiv (XF c) (XF x)) = if Req_EM_T x 0 then XP else XF (Rabs c / Rabs x).
Proof.
  intros Hc. cbn [xdiv]. destruct (Req_EM_T x 0) as [->|N].
  - unfold xsgn. destruct (Rlt_dec 0 c); [reflexivity|]. destruct (Rlt_dec c 0); [reflexivity|lra].
  - cbn [xabs]. f_equal. unfold Rdiv. rewrite Rabs_mult, Rabs_inv; auto.
Qed.
Lemma lim_pos c x : c <> 0 -> xabs (xdiv (XF c) (XF x)) = XP \/ exists w, xabs (xdiv (XF c) (XF x)) = XF w.
Proof. intro. rewrite lim_value by auto. destruct (Req_EM_T x 0); eauto. Qed.

Variables (M : machine xr) (r : rmach).
Hypothesis MI : machine_is M r.

Definition vlim i := xabs (xdiv (XF (rm_v r i)) (XF (share P i))).
Definition alim i := xabs (xdiv (XF (rm_a r i)) (XF (share P i))).
Definition dlim i := xabs (xdiv (XF (rm_d r i)) (XF (share P i))).
Definition clim i : list xr :=
  match pa_arc P with Some a => if on_arc P i then [XF (sqrt (rm_a r i * ar_r a))] else [] | None => [] end.

Lemma mach i : (i < 3)%nat -> rm_v r i <> 0 /\ rm_a r i <> 0 /\ rm_d r i <> 0.
Proof. intro Hi. destruct MI as (_ & _ & H). destruct (H i Hi) as (_ & _ & _ & _ & H1 & H2 & H3 & _). repeat split; lra. Qed.

Lemma limit_step i V Am Dm lv la ld : (i < 3)%nat ->
  smallest lv V -> smallest la Am -> smallest ld (xabs Dm) -> Dm = xopp (xabs Dm) ->
  let '(V', Am', Dm') := limit_axis A M (traj_set A m) (V, Am, Dm) i in
  smallest (vlim i :: clim i ++ lv) V' /\ smallest (alim i :: la) Am' /\ smallest (dlim i :: ld) (xabs Dm') /\ Dm' = xopp (xabs Dm').
Proof.
  intros Hi HV HA HD ED. unfold limit_axis. destruct (mach i Hi) as (N1 & N2 & N3).
  destruct MI as (_ & _ & MM). destruct (MM i Hi) as (EV & EA & EDm & _ & PV & PA & PD & _). rewrite EV, EA, EDm, dir_eq by auto.
  cbn [t_arc0 t_arc1 t_radius traj_set]. rewrite is_arc_eq by auto.
  cbn [aF x_arith nabs ndiv x_num nltb nsqrt nmul d2f]. fold (vlim i) (alim i) (dlim i).
  split; [|split; [|split]].
  - apply smallest_step; [apply lim_pos; auto|].
    destruct DS as (_ & _ & _ & HArc). destruct OK as (_ & HO). unfold clim, on_arc in *. destruct (pa_arc P) as [a|].
    + destruct HArc as (_ & _ & _ & _ & -> & _). destruct HO as (RP & _).
      destruct ((i =? ar_0 a)%nat || (i =? ar_1 a)%nat).
      * cbn [andb app]. cbn [xmul]. assert (0 < rm_a r i * ar_r a) by (apply Rmult_lt_0_compat; auto).
        rewrite xsqrt_nn by lra. apply smallest_step; eauto.
      * cbn [andb app]. auto.
    + cbn [andb app]. auto.
  - apply smallest_step; auto. apply lim_pos; auto.
  - destruct (xltb (dlim i) (xabs Dm)) eqn:E.
    + pose proof (smallest_step _ _ _ (lim_pos _ (share P i) N3 : dlim i = XP \/ _) HD) as Q. rewrite E in Q.
      destruct (dlim i) as [q| | |] eqn:EQ; try (destruct (xabs Dm); discriminate).
      * assert (q = Rabs q) as Eq. { unfold dlim in EQ. rewrite lim_value in EQ by auto. destruct (Req_EM_T (share P i) 0); [discriminate|].
          injection EQ as <-. rewrite (Rabs_right (_ / _)); auto. apply Rle_ge. apply Rmult_le_pos; [apply Rabs_pos|].
          apply Rlt_le, Rinv_0_lt_compat, Rabs_pos_lt; auto. }
        change (nofZ x_num (-1)) with (XF (-1)). cbn [xmul xabs]. replace (-1 * q) with (- q) by ring. rewrite Rabs_Ropp, <- Eq. exact Q.
      * unfold dlim in EQ. rewrite lim_value in EQ by auto. destruct (Req_EM_T (share P i) 0); discriminate.
    + pose proof (smallest_step _ _ _ (lim_pos _ (share P i) N3 : dlim i = XP \/ _) HD) as Q. rewrite E in Q. exact Q.
  - destruct (xltb (dlim i) (xabs Dm)) eqn:E; auto.
    unfold dlim in *. rewrite lim_value in * by auto. destruct (Req_EM_T (share P i) 0).
    + destruct (xabs Dm); discriminate.
    + change (nofZ x_num (-1)) with (XF (-1)). cbn [xmul xabs xopp]. f_equal. set (q := Rabs (rm_d r i) / Rabs (share P i)).
      assert (0 <= q) by (apply Rmult_le_pos; [apply Rabs_pos|apply Rlt_le, Rinv_0_lt_compat, Rabs_pos_lt; auto]).
      replace (-1 * q) with (- q) by ring. rewrite Rabs_Ropp, Rabs_right by lra. auto.
Qed.

Lemma limits_fold : let '(V, Am, Dm) := limits A M (traj_set A m) in
  smallest ((vlim 2 :: clim 2) ++ (vlim 1 :: clim 1) ++ (vlim 0 :: clim 0)) V /\
  smallest [alim 2; alim 1; alim 0] Am /\ smallest [dlim 2; dlim 1; dlim 0] (xabs Dm) /\ Dm = xopp (xabs Dm).
Proof.
  unfold limits, axes. cbn [fold_left].
  assert (S0 : smallest [] XP) by (left; split; auto; intros y []).
  change (ninf (aF A)) with XP. change (nopp (aF A) XP) with XM.
  pose proof (limit_step 0 XP XP XM [] [] [] ltac:(lia) S0 S0 S0 eq_refl) as H0.
  destruct (limit_axis A M (traj_set A m) (XP, XP, XM) 0) as [[V0 A0] D0]. destruct H0 as (a0 & b0 & c0 & d0).
  pose proof (limit_step 1 V0 A0 D0 _ _ _ ltac:(lia) a0 b0 c0 d0) as H1.
  destruct (limit_axis A M (traj_set A m) (V0, A0, D0) 1) as [[V1 A1] D1]. destruct H1 as (a1 & b1 & c1 & d1).
  pose proof (limit_step 2 V1 A1 D1 _ _ _ ltac:(lia) a1 b1 c1 d1) as H2.
  destruct (limit_axis A M (traj_set A m) (V1, A1, D1) 2) as [[V2 A2] D2]. destruct H2 as (a2 & b2 & c2 & d2).
  rewrite app_nil_r in a2. cbn [app] in *. auto.
Qed.

Lemma share_some : exists i, (i < 3)%nat /\ share P i <> 0.
Proof.
  pose proof L_pos as LP. destruct OK as (_ & HO). unfold share, on_arc in *. destruct (pa_arc P) as [a|].
  - exists (ar_0 a). split; [apply HO|]. rewrite Nat.eqb_refl. cbn. lra.
  - assert (K : forall i, pa_delta P i <> 0 -> pa_delta P i / pa_len P <> 0).
    { intros i Hi. apply Rmult_integral_contrapositive. split; auto. apply Rinv_neq_0_compat. fold L. lra. }
    destruct (Req_EM_T (pa_delta P 0%nat) 0) as [Z0|]; [|exists 0%nat; auto].
    destruct (Req_EM_T (pa_delta P 1%nat) 0) as [Z1|]; [|exists 1%nat; auto].
    destruct (Req_EM_T (pa_delta P 2%nat) 0) as [Z2|]; [|exists 2%nat; auto].
    exfalso. rewrite Z0, Z1, Z2 in HO. unfold sq in HO. fold L in HO. nra.
Qed.

(** One of the three families of limits, read back. *)
Lemma smallest_read (c : nat -> R) l x : (forall i, (i < 3)%nat -> c i <> 0) -> 
  smallest (l ++ map (fun i => xabs (xdiv (XF (c i)) (XF (share P i)))) axes) x ->
  (forall y, In y l -> exists w, y = XF w /\ 0 < w) ->
  exists v, x = XF v /\ 0 < v /\ (forall i, (i < 3)%nat -> v * Rabs (share P i) <= Rabs (c i)) /\
    (forall w, In (XF w) l -> v <= w) /\
    ((exists i, (i < 3)%nat /\ v * Rabs (share P i) = Rabs (c i)) \/ In (XF v) l).
Proof.
  intros HC HS HL. destruct share_some as (k & Hk & Nk).
  assert (IN : forall i, (i < 3)%nat -> In (xabs (xdiv (XF (c i)) (XF (share P i)))) (map (fun i => xabs (xdiv (XF (c i)) (XF (share P i)))) axes)).
  { intros i Hi. apply (in_map (fun i => xabs (xdiv (XF (c i)) (XF (share P i))))). revert i Hi. apply lt3; cbn; auto. }
  destruct HS as [(-> & H)|(v & -> & I & H)].
  - exfalso. specialize (H _ (in_or_app l _ _ (or_intror (IN k Hk)))). rewrite lim_value in H by auto. destruct (Req_EM_T (share P k) 0); [auto|discriminate].
  - exists v. split; auto.
    assert (T : (exists i, (i < 3)%nat /\ v * Rabs (share P i) = Rabs (c i) /\ 0 < v) \/ In (XF v) l).
    { apply in_app_or in I. destruct I as [I|I]; auto. left. apply in_map_iff in I. destruct I as (i & E & I).
      assert (Hi : (i < 3)%nat) by (cbn in I; lia). rewrite lim_value in E by auto. destruct (Req_EM_T (share P i) 0) as [|N]; [discriminate|].
      injection E as <-. exists i. pose proof (Rabs_pos_lt _ N). split; auto. split; [field; lra|].
      apply Rdiv_lt_0_compat; auto. apply Rabs_pos_lt; auto. }
    split. { destruct T as [(i & _ & _ & V)|I']; auto. destruct (HL _ I') as (w & E & W). injection E as <-. auto. }
    split. { intros i Hi. destruct (H _ (in_or_app l _ _ (or_intror (IN i Hi)))) as [E|(w & E & W)]; rewrite lim_value in E by auto;
        destruct (Req_EM_T (share P i) 0) as [Z|N]; try discriminate.
      - rewrite Z, Rabs_R0, Rmult_0_r. apply Rabs_pos.
      - injection E as <-. pose proof (Rabs_pos_lt _ N).
        apply (Rmult_le_compat_r (Rabs (share P i))) in W; [|lra]. replace (Rabs (c i) / Rabs (share P i) * Rabs (share P i)) with (Rabs (c i)) in W by (field; lra). auto. }
    split. { intros w Hw. destruct (H (XF w) (in_or_app l _ _ (or_introl Hw))) as [E|(w' & E & W)]; [discriminate|]. injection E as <-. auto. }
    destruct T as [(i & I1 & I2 & _)|]; eauto.
Qed.

Lemma smallest_perm l l' x : (forall y, In y l <-> In y l') -> smallest l x -> smallest l' x.
Proof.
  intros E [(-> & H)|(v & -> & I & H)].
  - left. split; auto. intros y Hy. apply H, E; auto.
  - right. exists v. split; auto. split; [apply E; auto|]. intros y Hy. apply H, E; auto.
Qed.

Lemma limits_lemma : exists v a d, limits A M (traj_set A m) = (XF v, XF a, XF d) /\ limits_ok r P v a d.
Proof.
  pose proof limits_fold as F. destruct (limits A M (traj_set A m)) as [[V Am] Dm]. destruct F as (FV & FA & FD & ED).
  assert (MM : forall i, (i < 3)%nat -> 0 < rm_v r i /\ 0 < rm_a r i /\ rm_d r i < 0).
  { intros i Hi. destruct MI as (_ & _ & H). destruct (H i Hi) as (_ & _ & _ & _ & H1 & H2 & H3 & _). auto. }
  assert (CP : forall i y, (i < 3)%nat -> In y (clim i) -> exists w, y = XF w /\ 0 < w).
  { intros i y Hi Hy. unfold clim in Hy. destruct OK as (_ & HO). destruct (pa_arc P) as [ar|]; [|destruct Hy]. destruct (on_arc P i); [|destruct Hy].
    destruct Hy as [<-|[]]. eexists. split; [reflexivity|]. apply sqrt_lt_R0. apply Rmult_lt_0_compat; [apply MM; auto|apply HO]. }
  destruct (smallest_read (rm_v r) (clim 2 ++ clim 1 ++ clim 0) V) as (v & -> & V0 & V1 & V2 & V3).
  { intros i Hi. apply mach. auto. }
  { eapply smallest_perm; [|exact FV]. intro y. rewrite ?in_app_iff. cbn [In map axes]. rewrite ?in_app_iff. cbn [In].
    unfold vlim. rewrite ?in_app_iff. tauto. }
  { intros y Hy. rewrite !in_app_iff in Hy. destruct Hy as [H|[H|H]]; eapply CP; try exact H; lia. }
  destruct (smallest_read (rm_a r) [] Am) as (a & -> & A0 & A1 & _ & A3).
  { intros i Hi. apply mach. auto. }
  { eapply smallest_perm; [|exact FA]. intro y. cbn [In map axes app]. unfold alim. tauto. }
  { intros y []. }
  destruct (smallest_read (rm_d r) [] (xabs Dm)) as (d & ED' & D0 & D1 & _ & D3).
  { intros i Hi. apply mach. auto. }
  { eapply smallest_perm; [|exact FD]. intro y. cbn [In map axes app]. unfold dlim. tauto. }
  { intros y []. }
  rewrite ED' in ED. cbn [xopp] in ED. subst Dm. exists v, a, (- d). split; auto.
  constructor.
  - split; auto. split; auto. lra.
  - intros i Hi. specialize (V1 i Hi). destruct (MM i Hi). rewrite (Rabs_right (rm_v r i)) in V1 by lra. auto.
  - intros i Hi. specialize (A1 i Hi). destruct (MM i Hi) as (_ & Q & _). rewrite (Rabs_right (rm_a r i)) in A1 by lra. auto.
  - intros i Hi. specialize (D1 i Hi). destruct (MM i Hi) as (_ & _ & Q). rewrite (Rabs_left (rm_d r i)) in D1 by lra. lra.
  - intros ar i E Oi.
    assert (Hi : (i < 3)%nat).
    { destruct OK as (_ & HO). unfold on_arc in Oi. rewrite E in *. destruct HO as (_ & H0 & H1 & _).
      apply orb_prop in Oi. destruct Oi as [Q|Q]; apply Nat.eqb_eq in Q; lia. }
    assert (I : In (XF (sqrt (rm_a r i * ar_r ar))) (clim 2 ++ clim 1 ++ clim 0)).
    { rewrite !in_app_iff. assert (K : In (XF (sqrt (rm_a r i * ar_r ar))) (clim i)) by (unfold clim; rewrite E, Oi; left; auto).
      destruct i as [|[|[|i]]]; [auto|auto|auto|lia]. }
    specialize (V2 _ I). destruct OK as (_ & HO). rewrite E in HO. destruct HO as (RP & _). destruct (MM i Hi) as (_ & AP & _).
    assert (0 < rm_a r i * ar_r ar) by (apply Rmult_lt_0_compat; auto).
    assert (v * v <= rm_a r i * ar_r ar).
    { rewrite <- (sqrt_sqrt (rm_a r i * ar_r ar)) by lra. apply sq_mono; lra. }
    apply (Rmult_le_reg_r (ar_r ar)); auto. replace (v * v / ar_r ar * ar_r ar) with (v * v) by (field; lra). auto.
  - destruct V3 as [(i & I1 & I2)|I].
    + exists i. split; auto. left. destruct (MM i I1). rewrite (Rabs_right (rm_v r i)) in I2 by lra. auto.
    + assert (K : exists i, (i < 3)%nat /\ In (XF v) (clim i)).
      { rewrite !in_app_iff in I. destruct I as [I|[I|I]]; eexists; (split; [|exact I]); lia. }
      destruct K as (i & Hi & K). exists i. split; auto. right. unfold clim in K. destruct OK as (_ & HO).
      destruct (pa_arc P) as [ar|] eqn:E; [|destruct K]. destruct (on_arc P i) eqn:Oi; [|destruct K].
      destruct K as [K|[]]. injection K as K. exists ar. split; auto. split; auto. destruct HO as (RP & _). destruct (MM i Hi) as (_ & AP & _).
      assert (0 < rm_a r i * ar_r ar) by (apply Rmult_lt_0_compat; auto).
      rewrite <- K, sqrt_sqrt by lra. field. lra.
  - destruct A3 as [(i & I1 & I2)|[]]. exists i. split; auto. destruct (MM i I1) as (_ & Q & _). rewrite (Rabs_right (rm_a r i)) in I2 by lra. auto.
  - destruct D3 as [(i & I1 & I2)|[]]. exists i. split; auto. destruct (MM i I1) as (_ & _ & Q). rewrite (Rabs_left (rm_d r i)) in I2 by lra. lra.
Qed.

(** *** How fast an axis moves for a given path speed *)
Lemma cos_lip x y : Rabs (cos x - cos y) <= Rabs (x - y).
Proof.
  assert (K : forall a b, a <= b -> Rabs (cos a - cos b) <= Rabs (a - b)).
  { intros a b H. pose proof (lip cos (fun t => - sin t) 1 (-1) a b H) as Q.
    destruct Q as [Q1 Q2].
    - intros t _. apply derivable_pt_lim_cos.
    - intros t _. apply derivable_continuous_pt. exists (- sin t). apply derivable_pt_lim_cos.
    - intros t _. pose proof (SIN_bound t). lra.
    - rewrite (Rabs_minus_sym a b), (Rabs_right (b - a)) by lra. apply Rabs_le. lra. }
  destruct (Rle_dec x y); [auto|]. rewrite Rabs_minus_sym, (Rabs_minus_sym x y). apply K. lra.
Qed.
Lemma sin_lip x y : Rabs (sin x - sin y) <= Rabs (x - y).
Proof.
  rewrite <- !cos_shift. eapply Rle_trans; [apply cos_lip|]. right.
  rewrite Rabs_minus_sym. f_equal. ring.
Qed.

Lemma arc_share a : pa_arc P = Some a -> Rabs (ar_r a * ar_da a / L) <= 1.
Proof.
  intro E. pose proof L_pos as LP. destruct OK as (_ & HO). rewrite E in HO. destruct HO as (RP & _ & _ & _ & HQ). fold L in HQ.
  assert (Q : sq (ar_r a * ar_da a) <= sq L).
  { rewrite HQ. pose proof (sq_nonneg (pa_delta P 0%nat)). pose proof (sq_nonneg (pa_delta P 1%nat)). pose proof (sq_nonneg (pa_delta P 2%nat)).
    destruct (on_arc P 0), (on_arc P 1), (on_arc P 2); lra. }
  unfold Rdiv. rewrite Rabs_mult, (Rabs_right (/ L)) by (apply Rle_ge, Rlt_le, Rinv_0_lt_compat; auto).
  apply (Rmult_le_reg_r L); auto. rewrite Rmult_assoc, Rinv_l, Rmult_1_r, Rmult_1_l by lra.
  unfold sq in Q. destruct (Rle_dec (Rabs (ar_r a * ar_da a)) L); auto. exfalso.
  assert (L * L < Rabs (ar_r a * ar_da a) * Rabs (ar_r a * ar_da a)) by (apply Rmult_le_0_lt_compat; lra).
  rewrite <- Rabs_mult, Rabs_right in H; [lra|]. apply Rle_ge. nra.
Qed.

Lemma pos_lip i s s' : Rabs (path_pos P i s - path_pos P i s') <= Rabs (share P i) * Rabs (s - s').
Proof.
  pose proof L_pos as LP.
  assert (LIN : Rabs (linear_pos P i s - linear_pos P i s') <= Rabs (pa_delta P i / L) * Rabs (s - s')).
  { unfold linear_pos. fold L. rewrite <- Rabs_mult. right. f_equal. field. lra. }
  unfold path_pos, share, on_arc. fold L. destruct (pa_arc P) as [a|] eqn:E; auto. pose proof (arc_share a E) as AS.
  assert (ARC : forall f : R -> R, (forall x y, Rabs (f x - f y) <= Rabs (x - y)) -> forall c,
    Rabs (c + ar_r a * f (ar_a0 a + ar_da a * (s / L)) - (c + ar_r a * f (ar_a0 a + ar_da a * (s' / L)))) <= Rabs 1 * Rabs (s - s')).
  { intros f Hf c. replace (c + ar_r a * f (ar_a0 a + ar_da a * (s / L)) - (c + ar_r a * f (ar_a0 a + ar_da a * (s' / L))))
      with (ar_r a * (f (ar_a0 a + ar_da a * (s / L)) - f (ar_a0 a + ar_da a * (s' / L)))) by ring.
    rewrite Rabs_mult. eapply Rle_trans; [apply Rmult_le_compat_l; [apply Rabs_pos|apply Hf]|].
    rewrite <- Rabs_mult. replace (ar_r a * (ar_a0 a + ar_da a * (s / L) - (ar_a0 a + ar_da a * (s' / L)))) with (ar_r a * ar_da a / L * (s - s')) by (field; lra).
    rewrite Rabs_mult. apply Rmult_le_compat_r; [apply Rabs_pos|]. rewrite Rabs_R1. auto. }
  destruct (i =? ar_0 a)%nat; cbn [orb]; [apply ARC, cos_lip|]. destruct (i =? ar_1 a)%nat; [apply ARC, sin_lip|auto].
Qed.
End Geom.

(** *** C32 *)
Lemma path_ends P : 0 < pa_len P ->
  (forall i, on_arc P i = false -> path_pos P i 0 = pa_start P i /\ path_pos P i (pa_len P) = pa_start P i + pa_delta P i) /\
  (forall a s, pa_arc P = Some a -> ar_0 a <> ar_1 a ->
     sq (path_pos P (ar_0 a) s - ar_c0 a) + sq (path_pos P (ar_1 a) s - ar_c1 a) = sq (ar_r a)).
Proof.
  intro LP. split.
  - intros i Hi. unfold path_pos, on_arc, linear_pos in *.
    assert (K : pa_start P i + pa_delta P i * (0 / pa_len P) = pa_start P i /\
                pa_start P i + pa_delta P i * (pa_len P / pa_len P) = pa_start P i + pa_delta P i) by (split; field; lra).
    destruct (pa_arc P) as [a|]; auto. apply orb_false_elim in Hi. destruct Hi as [-> ->]. auto.
  - intros a s E N. unfold path_pos. rewrite E, !Nat.eqb_refl.
    assert ((ar_1 a =? ar_0 a)%nat = false) as -> by (apply Nat.eqb_neq; auto). unfold sq.
    set (x := ar_a0 a + ar_da a * (s / pa_len P)). pose proof (sin2_cos2 x) as Q. unfold Rsqr in Q.
    replace (ar_c0 a + ar_r a * cos x - ar_c0 a) with (ar_r a * cos x) by ring.
    replace (ar_c1 a + ar_r a * sin x - ar_c1 a) with (ar_r a * sin x) by ring.
    replace (ar_r a * cos x * (ar_r a * cos x) + ar_r a * sin x * (ar_r a * sin x)) with (ar_r a * ar_r a * (sin x * sin x + cos x * cos x)) by ring.
    rewrite Q. ring.
Qed.

Lemma arc_ends P a : 0 < pa_len P -> pa_arc P = Some a -> ar_0 a <> ar_1 a ->
  path_pos P (ar_0 a) 0 = ar_c0 a + ar_r a * cos (ar_a0 a) /\ path_pos P (ar_1 a) 0 = ar_c1 a + ar_r a * sin (ar_a0 a) /\
  path_pos P (ar_0 a) (pa_len P) = ar_c0 a + ar_r a * cos (ar_a0 a + ar_da a) /\
  path_pos P (ar_1 a) (pa_len P) = ar_c1 a + ar_r a * sin (ar_a0 a + ar_da a).
Proof.
  intros LP E N. unfold path_pos. rewrite E, !Nat.eqb_refl.
  assert ((ar_1 a =? ar_0 a)%nat = false) as -> by (apply Nat.eqb_neq; auto).
  replace (ar_a0 a + ar_da a * (0 / pa_len P)) with (ar_a0 a) by (field; lra).
  replace (ar_a0 a + ar_da a * (pa_len P / pa_len P)) with (ar_a0 a + ar_da a) by (field; lra). auto.
Qed.

Lemma limits_lemma' (m : smotion xr) P M r : describes m P -> path_ok P -> machine_is M r ->
  exists v a d, limits A M (traj_set A m) = (XF v, XF a, XF d) /\ limits_ok r P v a d.
Proof. intros H1 H2 H3. exact (limits_lemma m P H1 H2 M r H3). Qed.
