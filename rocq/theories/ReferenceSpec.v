(** A reference interpreter for G-code, over real numbers.  It knows nothing of the
    controller: a program is a list of blocks, a block is a list of words (letter and
    value), and what a block asks for depends on the modes, the feed and the position left
    by the blocks before it.

    It covers the part of the language in which the controller is right: absolute
    positions in mm in the first coordinate system, straight motions and arcs, feed per
    minute and inverse time.  The planes G18 and G19 are those of the controller (see C58). *)
Require Import List Arith NArith ZArith Bool Reals.
From Verif Require Import Base NumR GcodeSpec GcodeRSpec GeomSpec CtrlRSpec RunSpec.
Import ListNotations.
Open Scope R_scope.

(** ** Text *)
Definition rword : Type := N * R.
(** The letters, as characters. *)
Definition aF := 70%N. Definition aG := 71%N. Definition aI := 73%N. Definition aM := 77%N. Definition aN := 78%N.
Definition aR := 82%N. Definition aS := 83%N. Definition aX := 88%N.
(** X, Y, Z and I, J, K belong to axes 0, 1, 2. *)
Definition axis_letter (i : nat) : N := (aX + N.of_nat i)%N.
Definition centre_letter (i : nat) : N := (aI + N.of_nat i)%N.

(** The line is these words in decimal notation; blanks, case and comments do not matter. *)
Definition value_text (t : list N) (v : R) : Prop :=
  exists neg ip fp, decimal t neg ip fp /\ v = (if neg then -1 else 1) * (IZR (Z.of_N (dec_val (ip ++ fp))) / 10 ^ length fp).
Definition written (l : list N) (ws : list rword) : Prop :=
  exists ts, same_text l (text_of ts) /\ Forall text_word ts /\ (length ts <= 16)%nat /\ (length (text_of ts) <= 255)%nat /\
    Forall2 (fun t w => fst t = fst w /\ value_text (snd t) (snd w)) ts ws.

(** ** Blocks *)

(** Codes that exclude each other, and the letters that carry a value. *)
Definition code_sets : list (N * list Z) :=
  [(aG, [0; 1; 2; 3]); (aG, [17; 18; 19]); (aG, [21]); (aG, [54]); (aG, [90]); (aG, [93; 94]);
   (aM, [3; 4; 5]); (aM, [7; 9]); (aM, [8; 9])]%Z.
Definition letters : list N := [aX; aX + 1; aX + 2; aI; aI + 1; aI + 2; aR; aF; aS; aN]%N.
Definition in_set (s : N * list Z) (w : rword) : Prop := fst w = fst s /\ exists z, In z (snd s) /\ snd w = IZR z.
(** A block of words known here, no two of which exclude each other. *)
Definition known (w : rword) : Prop := In (fst w) letters \/ exists s, In s code_sets /\ in_set s w.
Definition excludes (w1 w2 : rword) : Prop :=
  (fst w1 = fst w2 /\ In (fst w1) letters) \/ exists s, In s code_sets /\ in_set s w1 /\ in_set s w2.
Definition proper (ws : list rword) : Prop := Forall known ws /\ ForallOrdPairs (fun w1 w2 => ~ excludes w1 w2) ws.

Definition silent (ws : list rword) (l : N) : Prop := forall v, ~ In (l, v) ws.
(** The mode [new] is what a G code of the table in the block says, or else unchanged. *)
Definition sets {V} (T : list (Z * V)) (ws : list rword) (old new : V) : Prop :=
  (exists z, In (z, new) T /\ In (aG, IZR z) ws) \/ (new = old /\ forall z v, In (z, v) T -> ~ In (aG, IZR z) ws).

Inductive rmode := Rapid | Straight | Clockwise | Counterclockwise.
Definition mode_codes : list (Z * rmode) := [(0, Rapid); (1, Straight); (2, Clockwise); (3, Counterclockwise)]%Z.
Definition plane_codes : list (Z * (nat * nat)) := [(17, (0, 1)%nat); (18, (1, 2)%nat); (19, (2, 0)%nat)]%Z.
Definition inverse_codes : list (Z * bool) := [(93, true); (94, false)]%Z.
Definition is_arc (k : rmode) : bool := match k with Clockwise | Counterclockwise => true | _ => false end.

(** What is remembered: motion mode, plane, inverse time or feed per minute, the feed if
    there is one, and the position. *)
Record rstate := mkRS { rs_mode : rmode; rs_plane : nat * nat; rs_inverse : bool; rs_F : option R; rs_pos : nat -> R }.
Definition rs_start : rstate := mkRS Rapid (0, 1)%nat false None (fun _ => 0).

(** How an arc's centre is given: offsets from the start, or a radius. *)
Inductive centre := Offsets (o0 o1 : R) | Radius (R : R).
Record move := mkMove { mv_mode : rmode; mv_from : nat -> R; mv_to : nat -> R; mv_plane : nat * nat; mv_centre : option centre; mv_F : R; mv_inverse : bool }.

(** The feed that holds for a block: its own F word; or the remembered one, which a G93 or
    G94 in the block cancels. *)
Definition no_feed_code (ws : list rword) : Prop := forall z v, In (z, v) inverse_codes -> ~ In (aG, IZR z) ws.
Definition feed_for (s : rstate) (ws : list rword) (f : R) : Prop :=
  In (aF, f) ws \/ (silent ws aF /\ no_feed_code ws /\ rs_F s = Some f).
(** The centre words of a block in plane [pl]. *)
Definition centre_of (pl : nat * nat) (ws : list rword) (c : option centre) : Prop :=
  match c with
  | None => (forall i, (i < 3)%nat -> silent ws (centre_letter i)) /\ silent ws aR
  | Some (Offsets o0 o1) => In (centre_letter (fst pl), o0) ws /\ In (centre_letter (snd pl), o1) ws /\ silent ws aR
  | Some (Radius R) => (forall i, (i < 3)%nat -> silent ws (centre_letter i)) /\ In (aR, R) ws
  end.

(** One block: from state [s] to [s'], with or without a motion. *)
Record block_reads (s : rstate) (ws : list rword) (s' : rstate) : Prop := {
  br_proper : proper ws;
  br_mode : sets mode_codes ws (rs_mode s) (rs_mode s');
  br_plane : sets plane_codes ws (rs_plane s) (rs_plane s');
  br_inverse : sets inverse_codes ws (rs_inverse s) (rs_inverse s');
  br_pos : forall i, (i < 3)%nat -> In (axis_letter i, rs_pos s' i) ws \/ (silent ws (axis_letter i) /\ rs_pos s' i = rs_pos s i);
  br_F : forall f, In (aF, f) ws -> 0 < f;
  br_F' : forall f, rs_F s' = Some f -> rs_inverse s' = false /\ feed_for s ws f }.
(** A block with a motion code or an axis word moves. *)
Definition moves (ws : list rword) : Prop :=
  (exists z k, In (z, k) mode_codes /\ In (aG, IZR z) ws) \/ exists i v, (i < 3)%nat /\ In (axis_letter i, v) ws.
Definition asks_for (s : rstate) (ws : list rword) (s' : rstate) (mv : move) : Prop :=
  moves ws /\ mv_mode mv = rs_mode s' /\ mv_from mv = rs_pos s /\ mv_to mv = rs_pos s' /\ mv_plane mv = rs_plane s' /\
  centre_of (rs_plane s') ws (mv_centre mv) /\ mv_inverse mv = rs_inverse s' /\
  (is_arc (rs_mode s') = false -> mv_centre mv = None) /\
  (rs_mode s' <> Rapid -> feed_for s ws (mv_F mv) /\ (rs_inverse s' = true -> In (aF, mv_F mv) ws)).

(** A program: the moves it asks for, in order, and the state at its end. *)
Inductive interp : rstate -> list (list rword) -> list move -> rstate -> Prop :=
| interp_end s : interp s [] [] s
| interp_set s ws s1 wss mvs s' : block_reads s ws s1 -> ~ moves ws -> centre_of (rs_plane s1) ws None ->
    interp s1 wss mvs s' -> interp s (ws :: wss) mvs s'
| interp_move s ws s1 mv wss mvs s' : block_reads s ws s1 -> asks_for s ws s1 mv ->
    interp s1 wss mvs s' -> interp s (ws :: wss) (mv :: mvs) s'.

(** ** Moves *)

(** The move exists, on the machine [r]: the ends of a straight line differ, an arc
    given by offsets has its end on its circle, the diameter of one given by a radius is at least the
    distance of its ends, and it stays within the range of the step counters. *)
Definition possible (r : rmach) (mv : move) : Prop :=
  let p := mv_from mv in let q := mv_to mv in let (a0, a1) := mv_plane mv in
  exists d, (forall i, (i < 3)%nat -> in_range (rm_k r i * (Rabs (p i) + d)) /\ in_range (rm_k r i * (Rabs (q i) + d))) /\
  match is_arc (mv_mode mv), mv_centre mv with
  | false, None => 0 < distance p q /\ d = 0
  | true, Some (Offsets o0 o1) =>
      0 < sq o0 + sq o1 /\ dist2 (p a0 + o0) (p a1 + o1) (q a0) (q a1) = sq o0 + sq o1 /\ d = 2 * sqrt (sq o0 + sq o1)
  | true, Some (Radius R) => 0 < dist2 (p a0) (p a1) (q a0) (q a1) <= sq (2 * R) /\ d = 2 * Rabs R
  | _, _ => False
  end.

(** The leg does the move: from end to end, on a straight line or around the centre the right
    way, as fast as the feed and the machine allow. *)
Definition arc_does (mv : move) (a : arcp) : Prop :=
  let p := mv_from mv in let q := mv_to mv in let a0 := ar_0 a in let a1 := ar_1 a in
  mv_plane mv = (a0, a1) /\
  swept (match mv_mode mv with Clockwise => true | _ => false end) (ar_c0 a) (ar_c1 a) (p a0) (p a1) (q a0) (q a1) (ar_a0 a) (ar_da a) /\
  match mv_centre mv with
  | Some (Offsets o0 o1) => ar_c0 a = p a0 + o0 /\ ar_c1 a = p a1 + o1
  | Some (Radius R) => ar_r a = Rabs R /\ (0 < R -> Rabs (ar_da a) <= PI) /\ (R < 0 -> PI <= Rabs (ar_da a))
  | None => False
  end.
Definition speed_of (mv : move) (len : R) : xr :=
  match mv_mode mv with Rapid => XP | _ => XF (if mv_inverse mv then len * mv_F mv / 60 else mv_F mv / 60) end.
Definition does (r : rmach) (mv : move) (l : leg) : Prop :=
  let P := lg_path l in
  (forall i, (i < 3)%nat -> path_pos P i 0 = mv_from mv i /\ path_pos P i (pa_len P) = mv_to mv i) /\
  (if is_arc (mv_mode mv) then exists a, pa_arc P = Some a /\ arc_does mv a else pa_arc P = None) /\
  leg_ok r (speed_of mv (pa_len P)) 1 l.
