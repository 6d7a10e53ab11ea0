Require Import List Arith NArith ZArith Bool Lia ZifyBool ZifyNat ZifyN.
From Verif Require Import Base BaseProofs EventProofs HostModel HostSpec HostProofs.
Import ListNotations.
Open Scope N_scope.
Ltac Zify.zify_post_hook ::= Z.div_mod_to_equations.

(** *** The transmit side. *)

Lemma tx_repeat_lemma :
  let t := t_run (t_start [65] [66]) tx_repeat_schedule in
  t_pc t = TDone /\ t_waiting t = [] /\ t_wire t = [65; 66; 0].
Proof. vm_compute. auto. Qed.
Lemma tx_lose_lemma :
  let t := t_run (t_start [65; 67] [66]) tx_lose_schedule in
  t_pc t = TDone /\ t_waiting t = [] /\ t_wire t = [65; 66; 0].
Proof. vm_compute. auto. Qed.
Lemma tx_race_lemma :
  exists pending message schedule,
  let t := t_run (t_start pending message) schedule in
  t_pc t = TDone /\ t_waiting t = [] /\ (length pending + length message <= 256)%nat /\
  t_wire t <> pending ++ message /\
  exists b, In b (pending ++ message) /\ ~ In b (t_wire t).
Proof.
  exists [65; 67], [66], tx_lose_schedule. destruct tx_lose_lemma as (A & B & C).
  cbv zeta. rewrite A, B, C. repeat split; try (cbn; lia); try discriminate.
  exists 67. cbn. split; [auto|]. intros [H|[H|[H|[]]]]; discriminate.
Qed.
Lemma tx_extra_lemma :
  exists pending message schedule b,
  let t := t_run (t_start pending message) schedule in
  t_pc t = TDone /\ t_waiting t = [] /\ (length pending + length message <= 256)%nat /\
  t_wire t = pending ++ message ++ [b].
Proof.
  exists [65], [66], tx_repeat_schedule, 0. destruct tx_repeat_lemma as (A & B & C).
  cbv zeta. rewrite A, B, C. repeat split; cbn; lia.
Qed.

(** What holds at each program point: [p] was waiting and [m] is the message. *)
Definition t_inv (p m : list N) (t : tstate) : Prop :=
  length (t_arr t) = 256%nat /\ t_head t < 256 /\ t_level t <= 256 /\
  let sent := t_wire t ++ t_waiting t in
  let room := t_level t + N.of_nat (length (t_rest t)) <= 256 in
  match t_pc t with
  | T44 => sent = p /\ t_rest t = m
  | T46 => exists d, m = d ++ t_rest t /\ sent = p ++ d /\ room
  | T48level h => exists d, m = d ++ t_rest t /\ sent = p ++ d /\ room /\ t_rest t <> [] /\ h = t_head t
  | T48store j => exists d, m = d ++ t_rest t /\ sent = p ++ d /\ room /\ t_rest t <> [] /\
                  j = (t_head t + t_level t) mod 256
  | T49load => exists d, m = d ++ t_rest t /\ sent = p ++ d /\ room /\ t_rest t <> [] /\
               rget 0 (t_arr t) ((t_head t + t_level t) mod 256) = nth 0 (t_rest t) 0
  | T49store l => exists d, m = d ++ t_rest t /\ sent = p ++ d /\ room /\ t_rest t <> [] /\
               rget 0 (t_arr t) ((t_head t + t_level t) mod 256) = nth 0 (t_rest t) 0 /\ l = t_level t
  | T71 => sent = p ++ m \/ (sent = p /\ (256 < length p + length m)%nat)
  | TDone => (sent = p ++ m \/ (sent = p /\ (256 < length p + length m)%nat)) /\
             (t_tie t = true \/ t_waiting t = [])
  end.

Lemma push_free {A} (d : A) l cap head level x :
  N.of_nat (length l) = cap -> head < cap -> level < cap ->
  contents d (rset l ((head + level) mod cap) x) cap head level = contents d l cap head level.
Proof.
  intros Hl Hh Hv. unfold contents. apply map_ext_in. intros i Hi. apply in_seq in Hi.
  apply rget_rset_neq. apply ring_index_neq; lia.
Qed.
Lemma contents_more {A} (d : A) l cap head level :
  contents d l cap head (level + 1) = contents d l cap head level ++ [rget d l ((head + level) mod cap)].
Proof.
  unfold contents. replace (N.to_nat (level + 1)) with (S (N.to_nat level)) by lia.
  rewrite seq_S, map_app. cbn [map Nat.add]. rewrite N2Nat.id. reflexivity.
Qed.
Lemma next_same head level : head < 256 -> 0 < level ->
  ((head + 1) mod 256 + (level - 1)) mod 256 = (head + level) mod 256.
Proof. intros. rewrite N.add_mod_idemp_l by lia. f_equal. lia. Qed.

Lemma t_main_inv p m t : t_inv p m t -> t_inv p m (t_main t).
Proof.
  destruct t as [arr head level tie pc rest wire]. unfold t_inv, t_waiting, t_main, txBufferLength.
  cbn [t_arr t_head t_level t_tie t_pc t_rest t_wire]. intros (L & H & V & K).
  destruct pc; cbn [t_arr t_head t_level t_tie t_pc t_rest t_wire].
  - destruct K as (K & ->). rewrite sub32_small by (unfold two32; lia).
    destruct (N.leb_spec (N.of_nat (length m)) (256 - level)); repeat split; auto.
    + exists []. rewrite app_nil_r. repeat split; auto. lia.
    + right. split; auto. subst p. rewrite app_length, contents_length. lia.
  - destruct K as (d & -> & K & R). destruct rest as [|b r]; repeat split; auto.
    + left. rewrite app_nil_r. exact K.
    + exists d. repeat split; auto. discriminate.
  - destruct K as (d & -> & K & R & NE & ->). rewrite add32_small by (unfold two32; lia).
    repeat split; auto. exists d. repeat split; auto.
  - destruct K as (d & -> & K & R & NE & ->).
    assert (level < 256) by (destruct rest; [congruence|cbn [length] in R; lia]).
    rewrite rset_length. repeat split; auto. exists d. repeat split; auto.
    + rewrite push_free by (rewrite ?L; auto; lia). exact K.
    + apply rget_rset_eq. rewrite L. apply N.mod_lt. discriminate.
  - destruct K as (d & -> & K & R & NE & B). repeat split; auto. exists d. repeat split; auto.
  - destruct K as (d & -> & K & R & NE & B & ->). destruct rest as [|b r]; [congruence|].
    cbn [length nth tl] in *. rewrite add32_small by (unfold two32; lia). repeat split; auto; [lia|].
    exists (d ++ [b]). rewrite <- app_assoc. repeat split; [|lia].
    rewrite contents_more, B, app_assoc, K, <- app_assoc. reflexivity.
  - repeat split; auto.
  - repeat split; auto; apply K.
Qed.

Lemma t_irq_inv p m t : t_inv p m t -> ~ t_critical (t_pc t) -> t_inv p m (t_irq t).
Proof.
  destruct t as [arr head level tie pc rest wire]. unfold t_inv, t_waiting, t_irq, txBufferLength.
  cbn [t_arr t_head t_level t_tie t_pc t_rest t_wire]. intros (L & H & V & K) C.
  destruct tie; [|cbn [t_arr t_head t_level t_tie t_pc t_rest t_wire]; auto].
  destruct (N.ltb_spec 0 level) as [P|P]; cbn [t_arr t_head t_level t_tie t_pc t_rest t_wire].
  - rewrite (contents_pop 0 arr 256 head level) in K by (rewrite ?L; auto).
    rewrite add32_small, sub32_small by (unfold two32; lia).
    assert ((head + 1) mod 256 < 256) by (apply N.mod_lt; discriminate).
    rewrite <- app_assoc. cbn [app].
    repeat split; auto; [lia|].
    destruct pc; cbn [t_critical] in C; try (exfalso; exact (C I)).
    + exact K.
    + destruct K as (d & A & B & R). exists d. repeat split; auto. lia.
    + destruct K as (d & A & B & R & NE & J). exists d. repeat split; auto; [lia|].
      rewrite next_same; auto.
    + destruct K as (d & A & B & R & NE & J). exists d. repeat split; auto; [lia|].
      rewrite next_same; auto.
    + exact K.
    + destruct K as (K & _). auto.
  - assert (level = 0) by lia. subst level. rewrite contents_0 in *. repeat split; auto.
    destruct pc; auto. destruct K as (K & _). auto.
Qed.

Lemma t_run_inv p m l : forall t, t_inv p m t -> t_masked t l -> t_inv p m (t_run t l).
Proof.
  induction l as [|a r IH]; intros t I K; [exact I|]. destruct K as (A & K).
  change (t_run t (a :: r)) with (t_run (t_step t a) r). apply IH; auto.
  destruct a; cbn [t_step]; [now apply t_main_inv|now apply t_irq_inv].
Qed.

Lemma tx_masked_lemma : forall t l,
  length (t_arr t) = 256%nat -> t_head t < 256 -> t_level t <= 256 ->
  t_pc t = T44 -> t_wire t = [] -> t_masked t l ->
  let t' := t_run t l in
  let message := t_rest t in
  (exists todo, t_wire t' ++ t_waiting t' ++ todo = t_waiting t ++ message) /\
  (t_pc t' = TDone ->
     (t_wire t' ++ t_waiting t' = t_waiting t ++ message \/
      t_wire t' ++ t_waiting t' = t_waiting t /\ (256 < length (t_waiting t) + length message)%nat) /\
     (t_tie t' = true \/ t_waiting t' = [])).
Proof.
  intros t l L H V P W K. cbv zeta.
  assert (I : t_inv (t_waiting t) (t_rest t) (t_run t l)).
  { apply t_run_inv; auto. unfold t_inv. rewrite P, W. auto. }
  destruct I as (_ & _ & _ & I). split.
  - destruct (t_pc (t_run t l)).
    + exists (t_rest t). rewrite app_assoc, (proj1 I). reflexivity.
    + destruct I as (d & A & B & _). exists (t_rest (t_run t l)). now rewrite app_assoc, B, <- app_assoc, <- A.
    + destruct I as (d & A & B & _). exists (t_rest (t_run t l)). now rewrite app_assoc, B, <- app_assoc, <- A.
    + destruct I as (d & A & B & _). exists (t_rest (t_run t l)). now rewrite app_assoc, B, <- app_assoc, <- A.
    + destruct I as (d & A & B & _). exists (t_rest (t_run t l)). now rewrite app_assoc, B, <- app_assoc, <- A.
    + destruct I as (d & A & B & _). exists (t_rest (t_run t l)). now rewrite app_assoc, B, <- app_assoc, <- A.
    + destruct I as [I|(I & _)]; [exists []|exists (t_rest t)]; rewrite app_assoc, I; auto using app_nil_r.
    + destruct I as ([I|(I & _)] & _); [exists []|exists (t_rest t)]; rewrite app_assoc, I; auto using app_nil_r.
  - intro D. rewrite D in I. exact I.
Qed.

(** The call comes to an end: it takes at most 5 steps per byte and 4 more. *)
Definition t_left (t : tstate) : nat :=
  let n := (5 * length (t_rest t))%nat in
  match t_pc t with
  | T44 => n + 3 | T46 => n + 2 | T48level _ => n + 1 | T48store _ => n | T49load => n - 1
  | T49store _ => n - 2 | T71 => 1 | TDone => 0
  end.
Definition t_busy (t : tstate) : Prop :=
  match t_pc t with T48level _ | T48store _ | T49load | T49store _ => t_rest t <> [] | _ => True end.
Lemma t_left_step t a : t_busy t ->
  t_busy (t_step t a) /\
  (t_left (t_step t a) <= t_left t - match a with TMain => 1 | TIrq => 0 end)%nat.
Proof.
  destruct t as [arr head level tie pc rest wire]. unfold t_busy, t_left.
  destruct a; cbn [t_step].
  - unfold t_main. destruct pc; cbn [t_pc t_rest]; intro B;
      try (destruct rest as [|b r]; [congruence|]); cbn [length tl]; try (split; [auto|lia]).
    + match goal with |- context [if ?c then _ else _] => destruct c end; split; auto; lia.
    + destruct rest as [|b r]; cbn [length]; split; try exact I; try discriminate; lia.
  - unfold t_irq. destruct tie; [destruct (0 <? level)|]; cbn [t_pc t_rest]; intro B; split; auto; lia.
Qed.
Lemma t_left_run l : forall t, t_busy t -> (t_left (t_run t l) <= t_left t - t_mains l)%nat.
Proof.
  induction l as [|a r IH]; intros t B; [cbn; lia|].
  change (t_run t (a :: r)) with (t_run (t_step t a) r).
  destruct (t_left_step t a B) as (B1 & S1). specialize (IH _ B1).
  destruct a; cbn [t_mains]; lia.
Qed.
Lemma tx_ends_lemma t l : t_pc t = T44 -> (5 * length (t_rest t) + 3 <= t_mains l)%nat ->
  t_pc (t_run t l) = TDone.
Proof.
  intros P M. pose proof (t_left_run l t) as K.
  assert (B : t_busy t) by (unfold t_busy; rewrite P; exact I). specialize (K B).
  unfold t_left in K at 2. rewrite P in K.
  assert (Z : t_left (t_run t l) = 0%nat) by lia.
  assert (B' : t_busy (t_run t l)).
  { clear - B. revert t B. induction l as [|a r IH]; intros t B; [exact B|].
    change (t_run t (a :: r)) with (t_run (t_step t a) r). apply IH. now apply t_left_step. }
  unfold t_left, t_busy in *. destruct (t_pc (t_run t l)); try lia; auto;
    destruct (t_rest (t_run t l)) as [|b q]; try congruence; cbn [length] in Z; lia.
Qed.

(** *** The receive side. *)

Definition g_inv (p a : list N) (g : gstate) : Prop :=
  length (g_arr g) = 256%nat /\ g_head g < 256 /\ g_level g <= 256 /\
  let ring := g_waiting g in
  let all := p ++ a in
  let d := g_dest g in let b := g_byte g in
  match g_pc g with
  | G19 => d ++ ring = all /\ ~ In LF d /\ g_lines g = nl ring
  | G20 => d ++ ring = all /\ ~ In LF d /\ g_lines g = nl ring /\ 0 < g_level g
  | G21 => d ++ ring = all /\ ~ In LF d /\ g_lines g = nl ring /\ 0 < g_level g /\ b = rget 0 (g_arr g) (g_head g)
  | G22load => let ring := contents 0 (g_arr g) 256 (g_head g) (g_level g - 1) in
      d ++ b :: ring = all /\ ~ In LF d /\ g_lines g = nl (b :: ring) /\ 0 < g_level g
  | G22store l => let ring := contents 0 (g_arr g) 256 (g_head g) (g_level g - 1) in
      d ++ b :: ring = all /\ ~ In LF d /\ g_lines g = nl (b :: ring) /\ 0 < g_level g /\ l = g_level g
  | G23 => d ++ b :: ring = all /\ ~ In LF d /\ g_lines g = nl (b :: ring)
  | G26 => exists e, d = e ++ [b] /\ d ++ ring = all /\ ~ In LF e /\ g_lines g = nl (b :: ring)
  | G27load => exists e, d = e ++ [LF] /\ d ++ ring = all /\ ~ In LF e /\ g_lines g = nl ring + 1
  | G27store l => exists e, d = e ++ [LF] /\ d ++ ring = all /\ ~ In LF e /\ g_lines g = nl ring + 1 /\ l = g_lines g
  | GDone => exists e, d = e ++ [LF; 0] /\ (e ++ [LF]) ++ ring = all /\ ~ In LF e /\ g_lines g = nl ring
  end.

Lemma in_nl l : In LF l -> nl l <> 0.
Proof.
  intro H. unfold nl. apply (count_occ_In N.eq_dec) in H. lia.
Qed.
Lemma not_in_nl l : ~ In LF l -> nl l = 0.
Proof. intro H. unfold nl. apply (count_occ_not_In N.eq_dec) in H. lia. Qed.

Lemma g_main_inv p a g : In LF p -> g_inv p a g -> g_inv p a (g_main g).
Proof.
  intro HL. destruct g as [arr head level lines pc byte dest]. unfold g_inv, g_waiting, g_main, rxBufferLength.
  cbn [g_arr g_head g_level g_lines g_pc g_byte g_dest]. intros (L & H & V & K).
  destruct pc; cbn [g_arr g_head g_level g_lines g_pc g_byte g_dest].
  - destruct K as (K & D & N). destruct (N.ltb_spec 0 level) as [P|P].
    + repeat split; auto.
    + exfalso. assert (level = 0) by lia. subst level. rewrite contents_0, app_nil_r in K.
      apply D. rewrite K. apply in_or_app. auto.
  - destruct K as (K & D & N & P). repeat split; auto.
  - destruct K as (K & D & N & P & ->). rewrite add32_small by (unfold two32; lia).
    rewrite (contents_pop 0 arr 256 head level) in * by (rewrite ?L; auto).
    repeat split; auto. apply N.mod_lt. discriminate.
  - destruct K as (K & D & N & P). repeat split; auto.
  - destruct K as (K & D & N & P & ->). rewrite sub32_small by (unfold two32; lia).
    repeat split; auto. lia.
  - destruct K as (K & D & N). repeat split; auto. exists dest. rewrite <- app_assoc. auto.
  - destruct K as (e & -> & K & D & N). rewrite nl_cons in N.
    destruct (N.eqb_spec byte LF) as [->|E]; repeat split; auto.
    + exists e. repeat split; auto. lia.
    + intro X. apply in_app_or in X. destruct X as [X|[X|[]]]; auto.
  - destruct K as (e & -> & K & D & N). repeat split; auto. exists e. auto.
  - destruct K as (e & -> & K & D & N & ->). repeat split; auto. exists e. rewrite <- app_assoc.
    repeat split; auto. rewrite N.
    pose proof (nl_bound (contents 0 arr 256 head level)) as NB. rewrite contents_length in NB.
    rewrite sub32_small by (unfold two32; lia). lia.
  - repeat split; auto.
Qed.

Lemma g_irq_inv p a g b : g_inv p a g -> ~ g_critical (g_pc g) -> (length p + length a < 256)%nat ->
  g_inv p (a ++ [b]) (g_irq g b).
Proof.
  destruct g as [arr head level lines pc byte dest]. unfold g_inv, g_waiting, g_irq, rxBufferLength.
  cbn [g_arr g_head g_level g_lines g_pc g_byte g_dest]. intros (L & H & V & K) C F.
  assert (LV : level < 256).
  { assert (Q : (length (contents 0%N arr 256%N head level) <= length (p ++ a))%nat).
    { destruct pc; cbn [g_critical] in C; try (exfalso; exact (C I)).
      - destruct K as (<- & _). rewrite app_length. lia.
      - destruct K as (<- & _). rewrite app_length. lia.
      - destruct K as (<- & _). rewrite app_length. lia.
      - destruct K as (<- & _). rewrite app_length. cbn [length]. lia.
      - destruct K as (e & _ & <- & _). rewrite app_length. lia.
      - destruct K as (e & _ & <- & _). rewrite app_length. lia.
      - destruct K as (e & _ & <- & _). rewrite app_length. lia. }
    rewrite contents_length, app_length in Q. lia. }
  rewrite (proj2 (N.ltb_lt level 256) LV). cbn [g_arr g_head g_level g_lines g_pc g_byte g_dest].
  rewrite !add32_small by (unfold two32; lia). rewrite rset_length, contents_push by (rewrite ?L; auto).
  pose proof (nl_bound (contents 0 arr 256 head level)) as NB. rewrite contents_length in NB.
  repeat split; auto; [lia|].
  assert (NL : forall r x, x = nl r -> x <= 1024 ->
     (if b =? LF then add32 x 1 else x) = nl (r ++ [b])).
  { intros r x -> X. rewrite nl_app, nl_cons. change (nl []) with 0.
    destruct (b =? LF); [rewrite add32_small by (unfold two32; lia)|]; lia. }
  destruct pc; cbn [g_critical] in C; try (exfalso; exact (C I)).
  - destruct K as (K & D & N). rewrite !app_assoc, K. repeat split; auto. apply NL; auto. lia.
  - destruct K as (K & D & N & P). rewrite !app_assoc, K. repeat split; auto; [|lia]. apply NL; auto. lia.
  - destruct K as (K & D & N & P & E). rewrite !app_assoc, K. repeat split; auto; [|lia|].
    + apply NL; auto. lia.
    + rewrite rget_rset_neq; auto. intro X.
      assert (Y : (head + level) mod 256 = (head + 0) mod 256) by (rewrite N.add_0_r, X; symmetry; now apply N.mod_small).
      revert Y. apply ring_index_neq; lia.
  - destruct K as (K & D & N). rewrite !app_assoc. rewrite <- K. repeat split; auto.
    + rewrite <- app_assoc. reflexivity.
    + rewrite app_comm_cons. apply NL; auto. rewrite N, nl_cons. destruct (byte =? LF); lia.
  - destruct K as (e & -> & K & D & N). exists e. rewrite !app_assoc. rewrite <- K, <- !app_assoc. repeat split; auto.
    rewrite app_comm_cons. apply NL; auto. rewrite N, nl_cons. destruct (byte =? LF); lia.
  - destruct K as (e & -> & K & D & N). exists e. rewrite !app_assoc. rewrite <- K, <- !app_assoc. repeat split; auto.
    rewrite <- (NL _ _ eq_refl) by lia. rewrite N. destruct (b =? LF); [rewrite !add32_small by (unfold two32; lia)|]; lia.
  - destruct K as (e & -> & K & D & N). exists e. rewrite !app_assoc. rewrite <- K, <- !app_assoc. repeat split; auto.
    apply NL; auto. lia.
Qed.

Lemma g_run_inv p l : In LF p -> forall g a, g_inv p a g -> g_masked g l ->
  (length p + length a + length (g_arrivals l) <= 256)%nat ->
  g_inv p (a ++ g_arrivals l) (g_run g l).
Proof.
  intro HL. induction l as [|x r IH]; intros g a I K F; [cbn; rewrite app_nil_r; exact I|].
  destruct K as (A & K). change (g_run g (x :: r)) with (g_run (g_step g x) r).
  destruct x as [|b]; cbn [g_step g_arrivals flat_map app] in *.
  - apply IH; auto. now apply g_main_inv.
  - fold (g_arrivals r) in *. cbn [length] in F.
    replace (a ++ b :: g_arrivals r) with ((a ++ [b]) ++ g_arrivals r) by (now rewrite <- app_assoc).
    apply IH; auto; [|rewrite app_length; cbn [length]; lia].
    apply g_irq_inv; auto. lia.
Qed.

Lemma first_line_app l m r : first_line l = Some (m, r) -> forall a, first_line (l ++ a) = Some (m, r ++ a).
Proof.
  revert m r; induction l as [|b l IH]; intros m r H a; [discriminate|].
  cbn in *. destruct (b =? LF); [inversion H; subst; reflexivity|].
  destruct (first_line l) as [[m' r']|]; [|discriminate]. inversion H; subst.
  now rewrite (IH _ _ eq_refl).
Qed.
Lemma first_line_of e r : ~ In LF e -> first_line ((e ++ [LF]) ++ r) = Some (e ++ [LF], r).
Proof.
  induction e as [|b e IH]; intro H; [reflexivity|].
  cbn. destruct (N.eqb_spec b LF) as [->|E]; [exfalso; apply H; cbn; auto|].
  rewrite IH; auto. intro X. apply H. cbn; auto.
Qed.

Lemma rx_masked_lemma : forall g l line rest,
  length (g_arr g) = 256%nat -> g_head g < 256 -> g_level g <= 256 ->
  g_pc g = G19 -> g_dest g = [] -> g_lines g = N.of_nat (count_occ N.eq_dec (g_waiting g) LF) ->
  first_line (g_waiting g) = Some (line, rest) ->
  g_masked g l ->
  (length (g_waiting g) + length (g_arrivals l) <= 256)%nat ->
  let g' := g_run g l in
  g_pc g' = GDone ->
  g_dest g' = line ++ [0] /\ g_waiting g' = rest ++ g_arrivals l /\
  g_lines g' = N.of_nat (count_occ N.eq_dec (g_waiting g') LF).
Proof.
  intros g l line rest L H V P D N F K T. cbv zeta. intro E.
  assert (HL : In LF (g_waiting g)).
  { destruct (first_line_split _ _ _ F) as (-> & t & -> & _). apply in_or_app. left. apply in_or_app. cbn. auto. }
  assert (I : g_inv (g_waiting g) ([] ++ g_arrivals l) (g_run g l)).
  { apply g_run_inv; auto; [|cbn [length]; lia]. unfold g_inv. rewrite P, D, app_nil_r. repeat split; auto. }
  destruct I as (_ & _ & _ & I). rewrite E in I. destruct I as (e & I1 & I2 & I3 & I4).
  cbn [app] in I2. pose proof (first_line_app _ _ _ F (g_arrivals l)) as FA.
  rewrite <- I2, first_line_of in FA by auto. inversion FA; subst. 
  rewrite I1, <- app_assoc. split; [reflexivity|]. split; [congruence|exact I4].
Qed.

(** getMessage comes to an end, whatever the interrupts, as soon as there is a
    complete line: each byte takes at most 7 steps. *)
Definition g_left (n : nat) (g : gstate) : nat :=
  let k := (7 * (n - length (g_dest g)))%nat in
  match g_pc g with
  | G19 => k + 2 | G20 => k + 1 | G21 => k | G22load => k - 1 | G22store _ => k - 2 | G23 => k - 3
  | G26 => k + 3 | G27load => 2 | G27store _ => 1 | GDone => 0
  end.

Lemma short_of_line all line rest : first_line all = Some (line, rest) ->
  forall d r, d ++ r = all -> ~ In LF d -> (length d < length line)%nat.
Proof.
  revert line rest. induction all as [|b all IH]; intros line rest F d r E D; [discriminate|].
  cbn in F. destruct d as [|x d].
  - destruct (b =? LF); [inversion F; cbn; lia|].
    destruct (first_line all) as [[m t]|]; [|discriminate]. inversion F; cbn; lia.
  - cbn in E. inversion E; subst. destruct (N.eqb_spec b LF) as [->|X]; [exfalso; apply D; cbn; auto|].
    destruct (first_line (d ++ r)) as [[m t]|] eqn:G; [|discriminate]. inversion F; subst. cbn [length].
    assert (length d < length m)%nat; [|lia].
    apply (IH m rest eq_refl d r eq_refl). intro Y. apply D. cbn; auto.
Qed.

Lemma g_left_main p a g line rest : In LF p -> first_line p = Some (line, rest) -> g_inv p a g ->
  (g_left (length line) (g_main g) <= g_left (length line) g - 1)%nat.
Proof.
  intros HL F. pose proof (short_of_line _ _ _ (first_line_app _ _ _ F a)) as SL.
  destruct g as [arr head level lines pc byte dest]. unfold g_inv, g_waiting, g_main, g_left.
  cbn [g_arr g_head g_level g_lines g_pc g_byte g_dest]. intros (L & H & V & K).
  destruct pc; cbn [g_pc g_dest]; try lia.
  - destruct K as (K & D & N). destruct (0 <? level); cbn [g_pc g_dest]; lia.
  - destruct K as (K & D & _). specialize (SL _ _ K D). rewrite app_length. cbn [length]. lia.
  - destruct (byte =? LF); lia.
Qed.

Lemma g_left_run p line rest l : In LF p -> first_line p = Some (line, rest) ->
  forall g a, g_inv p a g -> g_masked g l ->
  (length p + length a + length (g_arrivals l) <= 256)%nat ->
  (g_left (length line) (g_run g l) <= g_left (length line) g - g_mains l)%nat.
Proof.
  intros HL F. induction l as [|x r IH]; intros g a I K T; [cbn; lia|].
  destruct K as (A & K). change (g_run g (x :: r)) with (g_run (g_step g x) r).
  destruct x as [|b]; cbn [g_step g_arrivals flat_map app g_mains] in *.
  - pose proof (g_left_main _ _ _ _ _ HL F I). specialize (IH _ a (g_main_inv _ _ _ HL I) K T). lia.
  - fold (g_arrivals r) in *. cbn [length] in T.
    assert (T1 : (length p + length a < 256)%nat) by lia.
    assert (T2 : (length p + length (a ++ [b]) + length (g_arrivals r) <= 256)%nat)
      by (rewrite app_length; cbn [length]; lia).
    specialize (IH _ _ (g_irq_inv _ _ _ b I A T1) K T2).
    replace (g_left (length line) g) with (g_left (length line) (g_irq g b)); [exact IH|].
    destruct g. unfold g_irq. destruct (_ <? rxBufferLength); reflexivity.
Qed.

Lemma rx_ends_lemma : forall g l line rest,
  length (g_arr g) = 256%nat -> g_head g < 256 -> g_level g <= 256 ->
  g_pc g = G19 -> g_dest g = [] -> g_lines g = N.of_nat (count_occ N.eq_dec (g_waiting g) LF) ->
  first_line (g_waiting g) = Some (line, rest) ->
  g_masked g l ->
  (length (g_waiting g) + length (g_arrivals l) <= 256)%nat ->
  (7 * length line + 2 <= g_mains l)%nat -> g_pc (g_run g l) = GDone.
Proof.
  intros g l line rest L H V P D N F K T M.
  assert (HL : In LF (g_waiting g)).
  { destruct (first_line_split _ _ _ F) as (-> & t & -> & _). apply in_or_app. left. apply in_or_app. cbn. auto. }
  assert (I0 : g_inv (g_waiting g) [] g).
  { unfold g_inv. rewrite P, D, app_nil_r. repeat split; auto. }
  pose proof (g_left_run _ _ _ l HL F g [] I0 K ltac:(cbn [length]; lia)) as Q.
  unfold g_left in Q at 2. rewrite P, D in Q. cbn [length] in Q.
  assert (I1 : g_inv (g_waiting g) ([] ++ g_arrivals l) (g_run g l)).
  { apply g_run_inv; auto. cbn [length]; lia. }
  pose proof (short_of_line _ _ _ (first_line_app _ _ _ F ([] ++ g_arrivals l))) as SL.
  destruct I1 as (_ & _ & _ & I1). unfold g_left in Q.
  destruct (g_pc (g_run g l)); try lia; auto.
  all: destruct I1 as (X & Y & _); specialize (SL _ _ X Y); lia.
Qed.

Lemma rx_whole_lemma : forall g l line rest,
  length (g_arr g) = 256%nat -> g_head g < 256 -> g_level g <= 256 ->
  g_pc g = G19 -> g_dest g = [] -> g_lines g = N.of_nat (count_occ N.eq_dec (g_waiting g) LF) ->
  first_line (g_waiting g) = Some (line, rest) ->
  g_masked g l ->
  (length (g_waiting g) + length (g_arrivals l) <= 256)%nat ->
  (7 * length line + 2 <= g_mains l)%nat ->
  let g' := g_run g l in
  g_pc g' = GDone /\ g_dest g' = line ++ [0] /\ g_waiting g' = rest ++ g_arrivals l /\
  g_lines g' = N.of_nat (count_occ N.eq_dec (g_waiting g') LF).
Proof.
  intros g l line rest L H V P D N F K T M. cbv zeta.
  pose proof (rx_ends_lemma g l line rest L H V P D N F K T M) as E. split; [exact E|].
  apply rx_masked_lemma; auto.
Qed.

Lemma tx_whole_lemma : forall t l,
  length (t_arr t) = 256%nat -> t_head t < 256 -> t_level t <= 256 ->
  t_pc t = T44 -> t_wire t = [] -> t_masked t l ->
  let t' := t_run t l in
  let waiting := t_waiting t in
  let message := t_rest t in
  (exists todo, t_wire t' ++ t_waiting t' ++ todo = waiting ++ message) /\
  ((5 * length message + 3 <= t_mains l)%nat ->
     t_pc t' = TDone /\
     (t_wire t' ++ t_waiting t' = waiting ++ message \/
      t_wire t' ++ t_waiting t' = waiting /\ (256 < length waiting + length message)%nat) /\
     (t_tie t' = true \/ t_waiting t' = [])).
Proof.
  intros t l L H V P W K. cbv zeta. destruct (tx_masked_lemma t l L H V P W K) as (A & B).
  split; [exact A|]. intro M. pose proof (tx_ends_lemma t l P M) as E. split; [exact E|]. exact (B E).
Qed.

(** The hypotheses are met: a ring that wraps round, and interrupts at every point
    where they may come. *)
Definition rx_w : gstate :=
  mkG ([LF; 67] ++ repeat 0 252 ++ [65; 66]) 254 4 1 G19 0 [].
Definition rx_w_schedule : list gact :=
  [GIrq 1; GMain; GIrq 2; GMain; GIrq 3; GMain; GMain; GMain; GIrq 4; GMain; GIrq LF; GMain; GIrq 5]
  ++ repeat GMain 16 ++ [GIrq 6] ++ repeat GMain 5.
Lemma rx_w_holds :
  length (g_arr rx_w) = 256%nat /\ g_head rx_w < 256 /\ g_level rx_w <= 256 /\
  g_pc rx_w = G19 /\ g_dest rx_w = [] /\
  g_lines rx_w = N.of_nat (count_occ N.eq_dec (g_waiting rx_w) LF) /\
  first_line (g_waiting rx_w) = Some ([65; 66; LF], [67]) /\
  g_masked rx_w rx_w_schedule /\
  (length (g_waiting rx_w) + length (g_arrivals rx_w_schedule) <= 256)%nat /\
  (7 * 3 + 2 <= g_mains rx_w_schedule)%nat /\
  g_arrivals rx_w_schedule = [1; 2; 3; 4; LF; 5; 6].
Proof.
  repeat apply conj; try (vm_compute; reflexivity); try (vm_compute; congruence);
    try (cbn; tauto); vm_compute; lia.
Qed.
Definition tx_w : tstate :=
  mkT ([66] ++ repeat 0 254 ++ [65]) 255 2 true T44 [67; 68] [].
Definition tx_w_schedule : list tact :=
  [TMain; TMain; TMain; TIrq; TMain; TIrq; TMain; TMain; TIrq; TMain; TMain; TIrq; TMain; TMain; TMain;
   TMain; TMain; TMain; TMain; TMain].
Lemma tx_w_holds :
  length (t_arr tx_w) = 256%nat /\ t_head tx_w < 256 /\ t_level tx_w <= 256 /\
  t_pc tx_w = T44 /\ t_wire tx_w = [] /\ t_masked tx_w tx_w_schedule /\
  t_waiting tx_w = [65; 66] /\ t_rest tx_w = [67; 68] /\ (5 * 2 + 3 <= t_mains tx_w_schedule)%nat /\
  t_wire (t_run tx_w tx_w_schedule) = [65; 66; 67] /\ t_waiting (t_run tx_w tx_w_schedule) = [68].
Proof.
  repeat apply conj; try (vm_compute; reflexivity); try (vm_compute; congruence);
    try (cbn; tauto); vm_compute; lia.
Qed.
