(** Independent notions used in the statements about G-code: what a text means,
    which words belong together, what a word sets. *)
Require Import List Arith NArith ZArith Bool.
From Verif Require Import Base Num MotionModel GcodeModel.
Import ListNotations.
Open Scope N_scope.

(** ** Text *)

(** A comment is open at the end of [a]. *)
Definition comment_open (a : list N) : Prop :=
  exists p q, a = p ++ 40 :: q /\ ~ In 41 q.

(** Two texts that differ only in blanks, case, comments or what follows the
    end of the line. *)
Inductive same_text : list N -> list N -> Prop :=
| same_refl l : same_text l l
| same_sym l l' : same_text l l' -> same_text l' l
| same_trans l l' l'' : same_text l l' -> same_text l' l'' -> same_text l l''
| same_space a b : same_text (a ++ 32 :: b) (a ++ b)
| same_tab a b : same_text (a ++ 9 :: b) (a ++ b)
| same_case a c b : 65 <= c <= 90 -> same_text (a ++ c :: b) (a ++ (c + 32) :: b)
| same_comment a t b : ~ comment_open a -> ~ In 41 t -> ~ In 10 t -> ~ In 0 t ->
    same_text (a ++ 40 :: t ++ 41 :: b) (a ++ b)
| same_newline a b : same_text (a ++ 10 :: b) a
| same_terminator a b : same_text (a ++ 0 :: b) a.

(** Characters of a number text: no letter, blank, parenthesis, end of line. *)
Definition plain (c : N) : Prop :=
  ~ (65 <= c <= 90) /\ ~ (97 <= c <= 122) /\ ~ In c [0; 9; 10; 32; 40; 41].
(** A word of a line: a capital letter and at most 15 further characters. *)
Definition text_word (w : N * list N) : Prop :=
  65 <= fst w <= 90 /\ (length (snd w) <= 15)%nat /\ Forall plain (snd w).
Definition text_of (ws : list (N * list N)) : list N := flat_map (fun w => fst w :: snd w) ws.

(** Decimal notation: sign, integer digits, optional fraction digits. *)
Definition dec_val (ds : list N) : N := fold_left (fun v d => 10 * v + d) ds 0.
Definition chars (ds : list N) : list N := map (fun d => 48 + d) ds.
Definition sign_text (neg : bool) (t : list N) : Prop :=
  if neg then t = [45] else t = [] \/ t = [43].
Definition decimal (t : list N) (neg : bool) (ip fp : list N) : Prop :=
  Forall (fun d => d < 10) (ip ++ fp) /\ (ip ++ fp <> []) /\
  exists sg, sign_text neg sg /\
    (t = sg ++ chars ip ++ 46 :: chars fp \/ (fp = [] /\ t = sg ++ chars ip)).

(** ** Words and groups *)

(** RS274 modal groups as far as the code's collision table knows them
    (letter, ten times the number). *)
Definition group_words (g : mgroup) : list (N * N) :=
  match g with
  | MgGroup0 => [(cG, 40); (cG, 100); (cG, 280); (cG, 300); (cG, 530)]
  | MgMotion => [(cG, 0); (cG, 10); (cG, 20); (cG, 30); (cG, 40)]
  | MgPlane => [(cG, 170); (cG, 180); (cG, 190)]
  | MgDistance => [(cG, 900); (cG, 910)]
  | MgSpindle => [(cM, 30); (cM, 40); (cM, 50)]
  | MgUnit => [(cG, 200); (cG, 210)]
  | MgFeedRate => [(cG, 930); (cG, 940)]
  | MgCoordinateSet => [(cG, 530); (cG, 540); (cG, 550); (cG, 560); (cG, 570); (cG, 580); (cG, 590)]
  | MgCoolantFlood => [(cM, 80); (cM, 90)]
  | MgCoolantMist => [(cM, 70); (cM, 90)]
  | MgManualOverride => []
  end.
Definition all_groups : list mgroup :=
  [MgGroup0; MgMotion; MgPlane; MgDistance; MgSpindle; MgUnit; MgFeedRate; MgCoordinateSet;
   MgCoolantFlood; MgCoolantMist; MgManualOverride].
(** The letters that carry a value, with their place in the parameter table. *)
Definition value_letters : list (N * gletter) :=
  [(cX, LtX); (cY, LtY); (cZ, LtZ); (cI, LtI); (cJ, LtJ); (cK, LtK); (cL, LtL); (cF, LtF);
   (cN, LtN); (cP, LtP); (cR, LtR); (cS, LtS)].

(** What a word sets: (letter, ten times the number, value). *)
Definition motion_words := [(cG, 0, G0); (cG, 10, G1); (cG, 20, G2); (cG, 30, G3)].
Definition feed_words := [(cG, 930, G93); (cG, 940, G94)].
Definition spindle_words := [(cM, 30, M3); (cM, 40, M4); (cM, 50, M5)].
Definition unit_words := [(cG, 200, G20); (cG, 210, G21)].
Definition plane_words := [(cG, 170, G17); (cG, 180, G18); (cG, 190, G19)].
Definition dist_words := [(cG, 900, G90); (cG, 910, G91)].
Definition coord_words :=
  [(cG, 540, G54); (cG, 550, G55); (cG, 560, G56); (cG, 570, G57); (cG, 580, G58); (cG, 590, G59);
   (cG, 591, G59_1); (cG, 592, G59_2); (cG, 593, G59_3)].
Definition over_words := [(cM, 480, M48); (cM, 490, M49)].
Definition flood_words := [(cM, 70, FloodM7); (cM, 90, FloodM9)].
Definition mist_words := [(cM, 80, MistM8); (cM, 90, MistM9)].

Section S.
Context {D : Type} (K : num D).
Local Notation word := (@word D).
Local Notation gstate := (@gstate D).

(** The block contains the word with this letter and ten times this number. *)
Definition has (ws : list word) (l n : N) : Prop :=
  exists w, In w ws /\ w_letter w = l /\ w_int w = n.
(** The block contains a word with this letter (and this value). *)
Definition has_letter (ws : list word) (l : N) : Prop := exists w, In w ws /\ w_letter w = l.
Definition has_value (ws : list word) (l : N) (x : D) : Prop :=
  exists w, In w ws /\ w_letter w = l /\ w_number w = x.

(** [new] is what a word of the table in the block says, or [old] if there is none. *)
Definition follows {V} (T : list (N * N * V)) (ws : list word) (old new : V) : Prop :=
  (exists l n, In (l, n, new) T /\ has ws l n) \/
  (new = old /\ forall l n v, In (l, n, v) T -> ~ has ws l n).
Definition follows_letter (l : N) (ws : list word) (old new : D) : Prop :=
  has_value ws l new \/ (new = old /\ ~ has_letter ws l).

(** The arrays of the state have their declared sizes (gcodestate.h:22-26). *)
Definition sized (s : gstate) : Prop :=
  length (s_letters s) = 13%nat /\ length (s_cur s) = 3%nat /\ length (s_next s) = 3%nat /\
  length (s_wcs s) = 10%nat /\ Forall (fun r => length r = 3%nat) (s_wcs s).

(** A block as getBlockFromString leaves it. *)
Definition from_line (b : block) : Prop := exists l, getBlock K l = Ok b.

(** The block has two words of one group, resp. two equal value letters. *)
Definition two_of (P : word -> Prop) (ws : list word) : Prop :=
  exists a x b y c, ws = a ++ x :: b ++ y :: c /\ P x /\ P y.
Definition in_group (g : mgroup) (w : word) : Prop := In (w_letter w, w_int w) (group_words g).
Definition group_collision (ws : list word) : Prop := exists g, two_of (in_group g) ws.
Definition letter_collision (ws : list word) : Prop :=
  exists l g, In (l, g) value_letters /\ two_of (fun w => w_letter w = l) ws.

(** A dwell with a valid time: G4 with P not negative. *)
Definition dwell (ws : list word) : Prop :=
  has ws cG 40 /\ exists x, has_value ws cP x /\ nleb K (nofZ K 0) x = true.

(** The parser made a motion: it left a motion type and did not report an error. *)
Definition made_motion (c : @gcode D) (m : smotion D) : Prop :=
  sm_type m <> mt_none /\ g_res c <> RError.

(** The words of a line. *)
Definition line_words (l : list N) (ws : list word) : Prop := exists b, getBlock K l = Ok b /\ b_words b = ws.
(** The block is not rejected for two conflicting words. *)
Definition consistent (ws : list word) : Prop := ~ group_collision ws /\ ~ letter_collision ws.

(** The three axes: letter, place in positions, place in the parameter table. *)
Definition axis_letters : list (N * nat * gletter) := [(cX, 0%nat, LtX); (cY, 1%nat, LtY); (cZ, 2%nat, LtZ)].
Definition coord_at (x : list D) (i : nat) : D := nth i x (nofZ K 0).
(** A length in the given unit, in mm. *)
Definition to_mm (u : mUnit) (x : D) : D :=
  match u with G20 => nmul K x (ndec K 254 1) | G21 => x end.
(** The offset of a coordinate system on an axis. *)
Definition offset (s : gstate) (c : mCoord) (i : nat) : D := coord_at (nth (co_index c) (s_wcs s) []) i.

(** F to be used for the motion of a block: its own valid F word, else, unless the
    block sets the feed mode (which cancels F), the previous F. *)
Definition active_feed (ws : list word) (old x : D) : Prop :=
  (has_value ws cF x /\ nltb K (nofZ K 0) x = true) \/
  (~ has_letter ws cF /\ (forall l n v, In (l, n, v) feed_words -> ~ has ws l n) /\ x = old).

(** Outcomes of the lines of a program form a chain of motions from position [p]. *)
Inductive chain : list D -> list (@gcode D * smotion D) -> list D -> Prop :=
| chain_nil p : chain p [] p
| chain_skip p c m r q : ~ made_motion c m -> s_cur (g_st c) = p -> chain p r q -> chain p ((c, m) :: r) q
| chain_move p c m r q : made_motion c m -> sm_start m = p ->
    sm_delta m = map (fun i => nsub K (coord_at (s_cur (g_st c)) i) (coord_at p i)) [0; 1; 2]%nat ->
    chain (s_cur (g_st c)) r q -> chain p ((c, m) :: r) q.

(** Absolute mode, and the position is what the remembered axis words say. *)
Definition tracked (s : gstate) : Prop :=
  s_dist s = G90 /\
  forall l i g, In (l, i, g) axis_letters ->
    coord_at (s_cur s) i = nadd K (offset s (s_coord s) i) (to_mm (s_unit s) (letter K s g)).
(** The block does not touch distance mode, units or coordinate system. *)
Definition no_frame_change (ws : list word) : Prop :=
  ~ has ws cG 530 /\ ~ has ws cG 910 /\
  (forall l n v, In (l, n, v) unit_words -> ~ has ws l n) /\
  (forall l n v, In (l, n, v) coord_words -> ~ has ws l n).
End S.

(** A word of any length, and what the parser keeps of it. *)
Definition long_word (w : N * list N) : Prop := 65 <= fst w <= 90 /\ Forall plain (snd w).
Definition kept_words (ws : list (N * list N)) : list (N * list N) :=
  firstn 16 (map (fun w => (fst w, firstn 15 (snd w))) ws).
