(** Model of lib/gcode: splitting a line into words (gcodeblock.cpp), the modal
    state (gcodestate.cpp) and the parser (gcode.cpp).  Bytes are [N]; doubles
    are an abstract arithmetic [num D]. *)
Require Import List Arith NArith ZArith Bool.
From Verif Require Import Base Num MotionModel.
Import ListNotations.
Open Scope N_scope.

(** ASCII codes used by the code *)
Definition cF : N := 70.  Definition cG : N := 71.  Definition cI : N := 73.
Definition cJ : N := 74.  Definition cK : N := 75.  Definition cL : N := 76.
Definition cM : N := 77.  Definition cN : N := 78.  Definition cP : N := 80.
Definition cR : N := 82.  Definition cS : N := 83.  Definition cX : N := 88.
Definition cY : N := 89.  Definition cZ : N := 90.

(** ** gcodeblock.cpp: from text to words *)

Definition is_upper (c : N) : bool := (65 <=? c) && (c <=? 90).
(** gcodeblock.cpp:60-63 *)
Definition upcase (c : N) : N := if (97 <=? c) && (c <=? 122) then c - 32 else c.

(** gcodeblock.cpp:37-70, the text that is written to gCodeLine.  The C string
    ends at its first 0; reading past the list counts as reading 0. *)
Fixpoint strip (inComment : bool) (l : list N) : list N :=
  match l with
  | [] => []
  | c :: r =>
      if c =? 0 then [] else if c =? 10 then []
      else if c =? 40 then strip true r
      else if c =? 41 then strip false r
      else if (c =? 32) || (c =? 9) then strip inComment r
      else if inComment then strip inComment r
      else upcase c :: strip inComment r
  end.

(** gcodeblock.h:47 char gCodeLine[256]: the text and its terminator must fit. *)
Definition gCodeLineSize : nat := 256.
(** gcodeblock.h:20 *)
Definition maxWords : nat := 16.

(** gcodeblock.cpp:86-90: at most [n] characters up to the next letter. *)
Fixpoint take_number (n : nat) (l : list N) : list N * list N :=
  match n, l with
  | S n', c :: r => if is_upper c then ([], l)
                    else let '(t, rest) := take_number n' r in (c :: t, rest)
  | _, _ => ([], l)
  end.

(** gcodeblock.cpp:73-104, the (letter, number text) pairs found, at most [room]
    of them.  Each round consumes at least one character: [fuel] = length. *)
Fixpoint split (fuel room : nat) (l : list N) : list (N * list N) :=
  match fuel, room, l with
  | S fuel', S room', c :: r =>
      if is_upper c
      then let '(t, rest) := take_number 15 r in (c, t) :: split fuel' room' rest
      else split fuel' room r
  | _, _, _ => []
  end.

(** strtod (gcodeblock.cpp:93) on a text without letters: skip white space
    (space, \t, \n cannot occur; \v \f \r can), optional sign, digits with an
    optional point.  At most 15 characters, so digits and power of ten are
    exactly representable and strtod's correctly rounded result is one division. *)
Definition is_space (c : N) : bool := (c =? 32) || ((9 <=? c) && (c <=? 13)).
Definition is_digit (c : N) : bool := (48 <=? c) && (c <=? 57).
Fixpoint skip_space (l : list N) : list N :=
  match l with c :: r => if is_space c then skip_space r else l | [] => [] end.
(** digits: value so far, number of digits read, rest *)
Fixpoint digits (v : N) (n : nat) (l : list N) : N * nat * list N :=
  match l with
  | c :: r => if is_digit c then digits (10 * v + (c - 48)) (S n) r else (v, n, l)
  | [] => (v, n, [])
  end.
(** sign, mantissa, number of decimals; (false,0,0) if no digit is found *)
Definition parse_number (l : list N) : bool * N * nat :=
  let l := skip_space l in
  let '(neg, l) := match l with
                   | c :: r => if c =? 45 then (true, r) else if c =? 43 then (false, r) else (false, l)
                   | [] => (false, l)
                   end in
  let '(v, n, r) := digits 0 0 l in
  let '(v, n, k) := match r with
                    | c :: r' => if c =? 46 then let '(v', n', _) := digits v n r' in (v', n', (n' - n)%nat)
                                 else (v, n, 0%nat)
                    | [] => (v, n, 0%nat)
                    end in
  match n with O => (false, 0, 0%nat) | _ => (neg, v, k) end.

(** gcodemodalgroup.h:9-29 (indices of modalGroupCount) *)
Inductive mgroup := MgGroup0 | MgMotion | MgPlane | MgDistance | MgSpindle | MgUnit | MgFeedRate
  | MgCoordinateSet | MgCoolantFlood | MgCoolantMist | MgManualOverride.
Definition mg_index (g : mgroup) : nat :=
  match g with MgGroup0 => 0 | MgMotion => 1 | MgPlane => 2 | MgDistance => 3 | MgSpindle => 4 | MgUnit => 5
  | MgFeedRate => 6 | MgCoordinateSet => 7 | MgCoolantFlood => 8 | MgCoolantMist => 9 | MgManualOverride => 10 end%nat.
(** gcodeletter.h:11-33 (indices of valueWordCount and letterValueState) *)
Inductive gletter := LtX | LtY | LtZ | LtI | LtJ | LtK | LtL | LtF | LtN | LtP | LtR | LtS | LtT.
Definition lt_index (l : gletter) : nat :=
  match l with LtX => 0 | LtY => 1 | LtZ => 2 | LtI => 3 | LtJ => 4 | LtK => 5 | LtL => 6 | LtF => 7 | LtN => 8
  | LtP => 9 | LtR => 10 | LtS => 11 | LtT => 12 end%nat.
Definition nmbrModalGroups : nat := 11.
Definition nmbrLetters : nat := 13.

Section G.
Context {D : Type} (K : num D).
Local Notation zero := (nofZ K 0).

(** gcodeword.h *)
Record word := mkW { w_letter : N; w_number : D; w_int : N }.

(** gcodeblock.h:41-47; the words in use (gCodeWords[0..nmbrWords-1]).  The
    counters are uint8_t/uint32_t; with at most 16 words they cannot wrap. *)
Record block := mkB {
  b_words : list word;
  b_nAxis : N; b_nOffset : N; b_nRadius : N;
  b_groups : list N; b_letters : list N }.

(** gcodeblock.cpp:12-25 *)
Definition block0 : block := mkB [] 0 0 0 (repeat 0 nmbrModalGroups) (repeat 0 nmbrLetters).

(** gcodeblock.cpp:93 *)
Definition number_of (t : list N) : D :=
  let '(neg, v, k) := parse_number t in
  let x := ndec K (Z.of_N v) (N.of_nat k) in
  if neg then nopp K x else x.

(** gcodeblock.cpp:95-99: conversion of number*10 to uint32_t, undefined when
    the truncated value does not fit. *)
Definition int_of (letter : N) (x : D) : res N :=
  if (letter =? cG) || (letter =? cM) then
    match ntoZ K (nmul K x (nofZ K 10)) with
    | Some z => if ((0 <=? z) && (z <? 4294967296))%Z then Ok (Z.to_N z) else UB
    | None => UB
    end
  else Ok 0.

Definition inc (l : list N) (i : nat) : list N := upd l i (nth i l 0 + 1).
Definition cnt_group (b : block) (g : mgroup) : block :=
  mkB (b_words b) (b_nAxis b) (b_nOffset b) (b_nRadius b) (inc (b_groups b) (mg_index g)) (b_letters b).
Definition cnt_letter (b : block) (l : gletter) : block :=
  mkB (b_words b) (b_nAxis b) (b_nOffset b) (b_nRadius b) (b_groups b) (inc (b_letters b) (lt_index l)).
Definition cnt_axis (b : block) : block :=
  mkB (b_words b) (b_nAxis b + 1) (b_nOffset b) (b_nRadius b) (b_groups b) (b_letters b).
Definition cnt_offset (b : block) : block :=
  mkB (b_words b) (b_nAxis b) (b_nOffset b + 1) (b_nRadius b) (b_groups b) (b_letters b).
Definition cnt_radius (b : block) : block :=
  mkB (b_words b) (b_nAxis b) (b_nOffset b) (b_nRadius b + 1) (b_groups b) (b_letters b).

(** gcodeblock.cpp:150-275 *)
Definition count_word (b : block) (letter int : N) : block :=
  if letter =? cG then
    match int with
    | 0 | 10 | 20 | 30 => cnt_group b MgMotion
    | 170 | 180 | 190 => cnt_group b MgPlane
    | 900 | 910 => cnt_group b MgDistance
    | 200 | 210 => cnt_group b MgUnit
    | 930 | 940 => cnt_group b MgFeedRate
    | 540 | 550 | 560 | 570 | 580 | 590 => cnt_group b MgCoordinateSet
    | 40 => cnt_group (cnt_group b MgMotion) MgGroup0
    | 100 | 280 | 300 => cnt_group b MgGroup0
    | 530 => cnt_group (cnt_group b MgCoordinateSet) MgGroup0
    | _ => b
    end
  else if letter =? cM then
    match int with
    | 30 | 40 | 50 => cnt_group b MgSpindle
    | 70 => cnt_group b MgCoolantMist
    | 80 => cnt_group b MgCoolantFlood
    | 90 => cnt_group (cnt_group b MgCoolantFlood) MgCoolantMist
    | _ => b
    end
  else if letter =? cF then cnt_letter b LtF
  else if letter =? cL then cnt_letter b LtL
  else if letter =? cN then cnt_letter b LtN
  else if letter =? cP then cnt_letter b LtP
  else if letter =? cR then cnt_radius (cnt_letter b LtR)
  else if letter =? cS then cnt_letter b LtS
  else if letter =? cX then cnt_axis (cnt_letter b LtX)
  else if letter =? cY then cnt_axis (cnt_letter b LtY)
  else if letter =? cZ then cnt_axis (cnt_letter b LtZ)
  else if letter =? cI then cnt_offset (cnt_letter b LtI)
  else if letter =? cJ then cnt_offset (cnt_letter b LtJ)
  else if letter =? cK then cnt_offset (cnt_letter b LtK)
  else b.

(** gcodeblock.cpp:91-102: one word is added. *)
Definition add_word (b : block) (lt : N * list N) : res block :=
  let x := number_of (snd lt) in
  i <- int_of (fst lt) x ;;
  let b1 := mkB (b_words b ++ [mkW (fst lt) x i]) (b_nAxis b) (b_nOffset b) (b_nRadius b) (b_groups b) (b_letters b) in
  Ok (count_word b1 (fst lt) i).
Fixpoint add_words (b : block) (l : list (N * list N)) : res block :=
  match l with
  | [] => Ok b
  | lt :: r => b1 <- add_word b lt ;; add_words b1 r
  end.

(** gcodeblock.cpp:27-105 getBlockFromString *)
Definition getBlock (l : list N) : res block :=
  let t := strip false l in
  if (length t <? gCodeLineSize)%nat
  then add_words block0 (split (length t) maxWords t)
  else UB.

(** gcodeblock.cpp:115-135; [None] is the result -1. *)
Definition hasWords (b : block) : bool := match b_words b with [] => false | _ => true end.
Fixpoint search_from (p : word -> bool) (ws : list word) (i : nat) : option nat :=
  match ws with
  | [] => None
  | w :: r => if p w then Some i else search_from p r (S i)
  end.
Definition search2 (b : block) (letter int : N) : option nat :=
  search_from (fun w => (w_letter w =? letter) && (w_int w =? int)) (b_words b) 0.
Definition search1 (b : block) (letter : N) : option nat :=
  search_from (fun w => w_letter w =? letter) (b_words b) 0.

(** gcodeblock.cpp:137-148: the last word moves to the place of the removed one. *)
Definition remove_nth {T} (ws : list T) (i : nat) : list T :=
  if (i <? length ws)%nat
  then match rev ws with
       | [] => ws
       | w :: _ => removelast (if (1 <? length ws)%nat then upd ws i w else ws)
       end
  else ws.
Definition with_words (b : block) (ws : list word) : block :=
  mkB ws (b_nAxis b) (b_nOffset b) (b_nRadius b) (b_groups b) (b_letters b).
Definition removeWord (b : block) (i : nat) : block := with_words b (remove_nth (b_words b) i).

(** gcodeblock.cpp:277-305 *)
Definition groupViolation (b : block) : bool := existsb (fun n => 1 <? n) (b_groups b).
Definition letterViolation (b : block) : bool := existsb (fun n => 1 <? n) (b_letters b).
Definition hasAxis (b : block) : bool := 0 <? b_nAxis b.
Definition hasOffset (b : block) : bool := 0 <? b_nOffset b.
Definition hasRadius (b : block) : bool := 0 <? b_nRadius b.

(** ** gcodestate.h *)

(** gcodemodalgroup.h:38-90 *)
Inductive mMotion := G0 | G1 | G2 | G3.
Inductive mFeed := G94 | G93.
Inductive mSpindle := M5 | M3 | M4.
Inductive mUnit := G21 | G20.
Inductive mPlane := G17 | G18 | G19.
Inductive mDist := G90 | G91.
Inductive mCoord := G53 | G54 | G55 | G56 | G57 | G58 | G59 | G59_1 | G59_2 | G59_3.
Inductive mOver := M48 | M49.
Inductive mFlood := FloodM9 | FloodM7.
Inductive mMist := MistM9 | MistM8.
Definition co_index (c : mCoord) : nat :=
  match c with G53 => 0 | G54 => 1 | G55 => 2 | G56 => 3 | G57 => 4 | G58 => 5 | G59 => 6
  | G59_1 => 7 | G59_2 => 8 | G59_3 => 9 end%nat.

(** gcodestate.h:22-26; modalGroupsState as one field per group (the entry of
    Group0 is never read or written). *)
Record gstate := mkS {
  s_motion : mMotion; s_feed : mFeed; s_spindle : mSpindle; s_unit : mUnit; s_plane : mPlane;
  s_dist : mDist; s_coord : mCoord; s_over : mOver; s_flood : mFlood; s_mist : mMist;
  s_letters : list D; s_cur : list D; s_next : list D; s_wcs : list (list D) }.

(** gcodestate.cpp:11-41 (nextPosition is not initialised; it is written before
    it is read, the model starts it at 0) *)
Definition gstate0 : gstate :=
  mkS G0 G94 M5 G21 G17 G90 G54 M48 FloodM9 MistM9 (repeat zero nmbrLetters)
      (repeat zero 3) (repeat zero 3) (repeat (repeat zero 3) 10).

Definition st_motion (v : mMotion) (s : gstate) : gstate :=
  mkS v (s_feed s) (s_spindle s) (s_unit s) (s_plane s) (s_dist s) (s_coord s) (s_over s) (s_flood s) (s_mist s) (s_letters s) (s_cur s) (s_next s) (s_wcs s).
Definition st_feed (v : mFeed) (s : gstate) : gstate :=
  mkS (s_motion s) v (s_spindle s) (s_unit s) (s_plane s) (s_dist s) (s_coord s) (s_over s) (s_flood s) (s_mist s) (s_letters s) (s_cur s) (s_next s) (s_wcs s).
Definition st_spindle (v : mSpindle) (s : gstate) : gstate :=
  mkS (s_motion s) (s_feed s) v (s_unit s) (s_plane s) (s_dist s) (s_coord s) (s_over s) (s_flood s) (s_mist s) (s_letters s) (s_cur s) (s_next s) (s_wcs s).
Definition st_unit (v : mUnit) (s : gstate) : gstate :=
  mkS (s_motion s) (s_feed s) (s_spindle s) v (s_plane s) (s_dist s) (s_coord s) (s_over s) (s_flood s) (s_mist s) (s_letters s) (s_cur s) (s_next s) (s_wcs s).
Definition st_plane (v : mPlane) (s : gstate) : gstate :=
  mkS (s_motion s) (s_feed s) (s_spindle s) (s_unit s) v (s_dist s) (s_coord s) (s_over s) (s_flood s) (s_mist s) (s_letters s) (s_cur s) (s_next s) (s_wcs s).
Definition st_dist (v : mDist) (s : gstate) : gstate :=
  mkS (s_motion s) (s_feed s) (s_spindle s) (s_unit s) (s_plane s) v (s_coord s) (s_over s) (s_flood s) (s_mist s) (s_letters s) (s_cur s) (s_next s) (s_wcs s).
Definition st_coord (v : mCoord) (s : gstate) : gstate :=
  mkS (s_motion s) (s_feed s) (s_spindle s) (s_unit s) (s_plane s) (s_dist s) v (s_over s) (s_flood s) (s_mist s) (s_letters s) (s_cur s) (s_next s) (s_wcs s).
Definition st_over (v : mOver) (s : gstate) : gstate :=
  mkS (s_motion s) (s_feed s) (s_spindle s) (s_unit s) (s_plane s) (s_dist s) (s_coord s) v (s_flood s) (s_mist s) (s_letters s) (s_cur s) (s_next s) (s_wcs s).
Definition st_flood (v : mFlood) (s : gstate) : gstate :=
  mkS (s_motion s) (s_feed s) (s_spindle s) (s_unit s) (s_plane s) (s_dist s) (s_coord s) (s_over s) v (s_mist s) (s_letters s) (s_cur s) (s_next s) (s_wcs s).
Definition st_mist (v : mMist) (s : gstate) : gstate :=
  mkS (s_motion s) (s_feed s) (s_spindle s) (s_unit s) (s_plane s) (s_dist s) (s_coord s) (s_over s) (s_flood s) v (s_letters s) (s_cur s) (s_next s) (s_wcs s).
Definition st_letter (l : gletter) (x : D) (s : gstate) : gstate :=
  mkS (s_motion s) (s_feed s) (s_spindle s) (s_unit s) (s_plane s) (s_dist s) (s_coord s) (s_over s) (s_flood s) (s_mist s) (upd (s_letters s) (lt_index l) x) (s_cur s) (s_next s) (s_wcs s).
Definition st_next (x : list D) (s : gstate) : gstate :=
  mkS (s_motion s) (s_feed s) (s_spindle s) (s_unit s) (s_plane s) (s_dist s) (s_coord s) (s_over s) (s_flood s) (s_mist s) (s_letters s) (s_cur s) x (s_wcs s).
Definition st_cur (x : list D) (s : gstate) : gstate :=
  mkS (s_motion s) (s_feed s) (s_spindle s) (s_unit s) (s_plane s) (s_dist s) (s_coord s) (s_over s) (s_flood s) (s_mist s) (s_letters s) x (s_next s) (s_wcs s).

Definition nthZ (l : list D) (i : nat) : D := nth i l zero.
Definition letter (s : gstate) (l : gletter) : D := nthZ (s_letters s) (lt_index l).

(** ** gcode.h / gcode.cpp *)

(** gcodeparseresulttype.h, gcodeparseerror.h *)
Inductive presult := EmptyBlock | OkContextUpdateOnly | OkContextUpdateAndMotion
  | WarningContextUpdateOnly | WarningContextUpdateAndMotion | RError.
Inductive perror := ENone | TooManyWordsInBlock | ModalGroupCollision | ValueWordCollision
  | InvalidLineNumber | InvalidFeedrate | MissingFeedrate | InvalidSpindleSpeed
  | MissingPForG4 | InvalidDwellTime | MissingLForG10 | MissingPForG10 | InvalidPForG10
  | MissingAxisWord | MissingOffsetWord | InvalidArcParameters | UnsupportedgCodeWord
  | SoftLimits | ConfigFileError.

(** gcode.h:34-37 *)
Record gcode := mkGC { g_block : block; g_st : gstate; g_res : presult; g_err : perror }.

(** gcode.cpp:13-30; resetting the G54 origin again changes nothing. *)
Definition gcode0 : gcode := mkGC block0 gstate0 EmptyBlock ENone.

(** gcode.cpp:763-768 *)
Definition g_getBlock (c : gcode) (l : list N) : res gcode :=
  b <- getBlock l ;; Ok (mkGC b (g_st c) (g_res c) (g_err c)).

Definition on_state (f : gstate -> gstate) (c : gcode) : gcode :=
  mkGC (g_block c) (f (g_st c)) (g_res c) (g_err c).
Definition on_block (f : block -> block) (c : gcode) : gcode :=
  mkGC (f (g_block c)) (g_st c) (g_res c) (g_err c).
Definition set_result (r : presult) (e : perror) (c : gcode) : gcode :=
  mkGC (g_block c) (g_st c) r e.
Definition g_remove (i : nat) (c : gcode) : gcode := on_block (fun b => removeWord b i) c.
Definition word_number (c : gcode) (i : nat) : D :=
  match nth_error (b_words (g_block c)) i with Some w => w_number w | None => zero end.

(** An if / else-if chain over G or M words: the first one found takes effect
    and is removed (shape of gcode.cpp:264-400).  The hasWords() tests around the
    chains are left out: without words nothing is found. *)
Fixpoint first_of (c : gcode) (opts : list (N * N * (gstate -> gstate))) : gcode :=
  match opts with
  | [] => c
  | (l, n, f) :: r =>
      match search2 (g_block c) l n with
      | Some i => g_remove i (on_state f c)
      | None => first_of c r
      end
  end.

(** gcode.cpp:264-276 *)
Definition setdistanceMode (c : gcode) : gcode :=
  first_of c [(cG, 900, st_dist G90); (cG, 910, st_dist G91)].
(** gcode.cpp:278-317 *)
Definition setWCSMode (c : gcode) : gcode :=
  first_of c [(cG, 540, st_coord G54); (cG, 550, st_coord G55); (cG, 560, st_coord G56);
              (cG, 570, st_coord G57); (cG, 580, st_coord G58); (cG, 590, st_coord G59);
              (cG, 591, st_coord G59_1); (cG, 592, st_coord G59_2); (cG, 593, st_coord G59_3)].
(** gcode.cpp:319-331 *)
Definition setUnitsMode (c : gcode) : gcode :=
  first_of c [(cG, 200, st_unit G20); (cG, 210, st_unit G21)].
(** gcode.cpp:333-349 (nmbrAxis = 3) *)
Definition setArcPlane (c : gcode) : gcode :=
  first_of c [(cG, 170, st_plane G17); (cG, 180, st_plane G18); (cG, 190, st_plane G19)].
(** gcode.cpp:351-363 *)
Definition setOverrideMode (c : gcode) : gcode :=
  first_of c [(cM, 480, st_over M48); (cM, 490, st_over M49)].
(** gcode.cpp:365-383: three independent ifs *)
Definition setCoolantMode (c : gcode) : gcode :=
  let c := first_of c [(cM, 70, st_flood FloodM7)] in
  let c := first_of c [(cM, 80, st_mist MistM8)] in
  first_of c [(cM, 90, fun s => st_mist MistM9 (st_flood FloodM9 s))].
(** gcode.cpp:385-400 *)
Definition setSpindleMode (c : gcode) : gcode :=
  first_of c [(cM, 30, st_spindle M3); (cM, 40, st_spindle M4); (cM, 50, st_spindle M5)].
(** gcode.cpp:402-416 *)
Definition setSpindleSpeed (c : gcode) : gcode :=
  match search1 (g_block c) cS with
  | Some i =>
      let x := word_number c i in
      if nleb K zero x then g_remove i (on_state (st_letter LtS x) c)
      else set_result RError InvalidSpindleSpeed c
  | None => c
  end.
(** gcode.cpp:418-441 *)
Definition setFeedrateValue (c : gcode) : gcode :=
  if hasWords (g_block c) then
    match search1 (g_block c) cF with
    | Some i =>
        let x := word_number c i in
        if nltb K zero x then g_remove i (on_state (st_letter LtF x) c)
        else set_result RError InvalidFeedrate c
    | None =>
        match s_feed (g_st c) with
        | G93 => set_result RError MissingFeedrate c
        | G94 => c
        end
    end
  else c.
(** gcode.cpp:443-455: the words are not removed *)
Definition setFeedrateMode (c : gcode) : gcode :=
  match search2 (g_block c) cG 930 with
  | Some _ => on_state (fun s => st_letter LtF zero (st_feed G93 s)) c
  | None =>
      match search2 (g_block c) cG 940 with
      | Some _ => on_state (fun s => st_letter LtF zero (st_feed G94 s)) c
      | None => c
      end
  end.

(** gcode.cpp:461-494, one letter *)
Definition get_letter (ch : N) (l : gletter) (c : gcode) : gcode :=
  match search1 (g_block c) ch with
  | Some i => g_remove i (on_state (st_letter l (word_number c i)) c)
  | None => c
  end.
(** gcode.cpp:457-496 *)
Definition getAxisOffsetRadiusWords (c : gcode) : gcode :=
  let c := if hasAxis (g_block c)
           then get_letter cZ LtZ (get_letter cY LtY (get_letter cX LtX c)) else c in
  let c := if hasOffset (g_block c)
           then get_letter cK LtK (get_letter cJ LtJ (get_letter cI LtI c)) else c in
  if hasRadius (g_block c) then get_letter cR LtR c else c.

(** gcode.cpp:498-515 *)
Definition getLineNumberWord (c : gcode) : gcode :=
  match search1 (g_block c) cN with
  | None => c
  | Some (S _) => set_result RError InvalidLineNumber c
  | Some O =>
      let x := word_number c 0 in
      if nleb K zero x then g_remove 0 (on_state (st_letter LtN x) c)
      else set_result RError InvalidLineNumber c
  end.

(** *** calculation of a motion; [pi] is the constant gcode.h:31 *)
Context (pi : D).
Local Notation inches2mm := (ndec K 254 1).           (* gcode.h:32 *)

(** value in millimetres of a length given in the active unit *)
Definition in_mm (s : gstate) (x : D) : D :=
  match s_unit s with G20 => nmul K x inches2mm | G21 => x end.

Definition sm_with_type (t : motionType) (m : smotion D) : smotion D :=
  mkSM t (sm_length m) (sm_start m) (sm_delta m) (sm_arc0 m) (sm_arc1 m) (sm_center0 m) (sm_center1 m)
       (sm_radius m) (sm_startAngle m) (sm_deltaAngle m) (sm_vFeed m) (sm_duration m)
       (sm_flood m) (sm_mist m) (sm_spindle m) (sm_cw m).

(** gcode.cpp:528-544 *)
Definition next_axis (s : gstate) (i : nat) : D :=
  let x := in_mm s (nthZ (s_letters s) i) in
  let x := match s_dist s with G91 => nadd K (nthZ (s_cur s) i) x | G90 => x end in
  nadd K (nthZ (nth (co_index (s_coord s)) (s_wcs s) []) i) x.
Definition calcNextPosition (s : gstate) (m : smotion D) : gstate * smotion D :=
  let nx := map (next_axis s) axes in
  (st_next nx s,
   mkSM (sm_type m) (sm_length m) (map (nthZ (s_cur s)) axes)
        (map (fun i => nsub K (nthZ nx i) (nthZ (s_cur s) i)) axes)
        (sm_arc0 m) (sm_arc1 m) (sm_center0 m) (sm_center1 m)
        (sm_radius m) (sm_startAngle m) (sm_deltaAngle m) (sm_vFeed m) (sm_duration m)
        (sm_flood m) (sm_mist m) (sm_spindle m) (sm_cw m)).

Definition is_helical (t : motionType) : bool :=
  match t with feedHelicalCW | feedHelicalCCW => true | _ => false end.

(** gcode.cpp:546-569 *)
Definition plane_axes (p : mPlane) : nat * nat :=
  match p with G17 => (0, 1) | G18 => (1, 2) | G19 => (2, 0) end%nat.
Definition setArcAxisFromPlane (s : gstate) (m : smotion D) : smotion D :=
  let '(a0, a1) := if is_helical (sm_type m) then plane_axes (s_plane s) else (3, 3)%nat in
  mkSM (sm_type m) (sm_length m) (sm_start m) (sm_delta m) a0 a1 (sm_center0 m) (sm_center1 m)
       (sm_radius m) (sm_startAngle m) (sm_deltaAngle m) (sm_vFeed m) (sm_duration m)
       (sm_flood m) (sm_mist m) (sm_spindle m) (sm_cw m).

Definition sm_with_arc (m : smotion D) (c0 c1 r : D) : smotion D :=
  mkSM (sm_type m) (sm_length m) (sm_start m) (sm_delta m) (sm_arc0 m) (sm_arc1 m) c0 c1
       r (sm_startAngle m) (sm_deltaAngle m) (sm_vFeed m) (sm_duration m)
       (sm_flood m) (sm_mist m) (sm_spindle m) (sm_cw m).

(** gcode.cpp:575-594, one round: the centre coordinate on an arc axis *)
Definition center_axis (s : gstate) (a : nat) : D :=
  nadd K (nthZ (s_cur s) a) (in_mm s (nthZ (s_letters s) (a + 3))).
Definition sqd (x : D) : D := nmul K x x.

(** gcode.cpp:571-656.  currentPosition, nextPosition and delta are indexed by
    the arc axes: out of bounds when these are nmbrAxis (not an arc).  The tests
    whose branches contain only comments are left out. *)
Definition calcArcCenterAndRadius (b : block) (s : gstate) (m : smotion D) : res (smotion D) :=
  let a0 := sm_arc0 m in let a1 := sm_arc1 m in
  if hasOffset b then
    if (a0 <? 3)%nat && (a1 <? 3)%nat then
      let c0 := center_axis s a0 in
      let c1 := center_axis s a1 in
      let r := nsqrt K (nadd K (nadd K zero (sqd (nsub K (nthZ (s_cur s) a0) c0)))
                               (sqd (nsub K (nthZ (s_cur s) a1) c1))) in
      Ok (sm_with_arc m c0 c1 r)
    else UB
  else if hasRadius b then
    if (a0 <? 3)%nat && (a1 <? 3)%nat then
      let r := in_mm s (letter s LtR) in
      let d0 := nthZ (sm_delta m) a0 in
      let d1 := nthZ (sm_delta m) a1 in
      let tmpD := nsqrt K (nadd K (sqd d0) (sqd d1)) in
      let tmpH := nmul K (nsqrt K (nsub K (nsub K (nmul K (nmul K (nofZ K 4) r) r) (sqd d0)) (sqd d1))) (ndec K 5 1) in
      let v := ndiv K tmpH tmpD in
      let v := match sm_type m with feedHelicalCW => nopp K v | _ => v end in
      let '(v, r) := if nltb K r zero then (nopp K v, nopp K r) else (v, r) in
      Ok (sm_with_arc m
            (nadd K (nthZ (s_cur s) a0) (nsub K (nmul K d0 (ndec K 5 1)) (nmul K d1 v)))
            (nadd K (nthZ (s_cur s) a1) (nadd K (nmul K d1 (ndec K 5 1)) (nmul K d0 v)))
            r)
    else UB
  else Ok m.

(** gcode.cpp:658-676 *)
Definition calcArcAngles (s : gstate) (m : smotion D) : smotion D :=
  let '(sa, da) :=
    if is_helical (sm_type m) then
      let a0 := sm_arc0 m in let a1 := sm_arc1 m in
      let sa := natan2 K (nsub K (nthZ (s_cur s) a1) (sm_center1 m)) (nsub K (nthZ (s_cur s) a0) (sm_center0 m)) in
      let ea := natan2 K (nsub K (nthZ (s_next s) a1) (sm_center1 m)) (nsub K (nthZ (s_next s) a0) (sm_center0 m)) in
      let da := nsub K ea sa in
      let twopi := nmul K (nofZ K 2) pi in
      (sa, match sm_type m with
           | feedHelicalCW => if nleb K zero da then nsub K da twopi else da
           | _ => if nleb K da zero then nadd K da twopi else da
           end)
    else (zero, zero) in
  mkSM (sm_type m) (sm_length m) (sm_start m) (sm_delta m) (sm_arc0 m) (sm_arc1 m) (sm_center0 m) (sm_center1 m)
       (sm_radius m) sa da (sm_vFeed m) (sm_duration m)
       (sm_flood m) (sm_mist m) (sm_spindle m) (sm_cw m).

(** gcode.cpp:678-688 *)
Definition calcTrajectoryLength (m : smotion D) : smotion D :=
  let arc := nmul K (sm_radius m) (nabs K (sm_deltaAngle m)) in
  let sum := fold_left (fun acc i => if is_arc (sm_arc0 m) (sm_arc1 m) i then acc
                                     else nadd K acc (sqd (nthZ (sm_delta m) i))) axes (nmul K arc arc) in
  mkSM (sm_type m) (nsqrt K sum) (sm_start m) (sm_delta m) (sm_arc0 m) (sm_arc1 m) (sm_center0 m) (sm_center1 m)
       (sm_radius m) (sm_startAngle m) (sm_deltaAngle m) (sm_vFeed m) (sm_duration m)
       (sm_flood m) (sm_mist m) (sm_spindle m) (sm_cw m).

(** gcode.cpp:690-727 *)
Definition calcSpeedAndOrDuration (s : gstate) (m : smotion D) : smotion D :=
  let len := sm_length m in
  let '(v, d) :=
    match sm_type m with
    | traverse => (ninf K, ndiv K len (ninf K))
    | feedLinear | feedHelicalCW | feedHelicalCCW =>
        let f := letter s LtF in
        let v := match s_feed s with
                 | G93 => ndiv K (nmul K len f) (nofZ K 60)
                 | G94 => ndiv K (in_mm s f) (nofZ K 60)
                 end in
        (v, ndiv K len v)
    | _ => (zero, letter s LtP)
    end in
  mkSM (sm_type m) (sm_length m) (sm_start m) (sm_delta m) (sm_arc0 m) (sm_arc1 m) (sm_center0 m) (sm_center1 m)
       (sm_radius m) (sm_startAngle m) (sm_deltaAngle m) v d
       (sm_flood m) (sm_mist m) (sm_spindle m) (sm_cw m).

(** gcode.cpp:729-747 *)
Definition calcPeripherals (s : gstate) (m : smotion D) : smotion D :=
  let '(sp, cw) := match s_spindle s with
                   | M5 => (zero, true)
                   | M3 => (letter s LtS, true)
                   | M4 => (letter s LtS, false)
                   end in
  mkSM (sm_type m) (sm_length m) (sm_start m) (sm_delta m) (sm_arc0 m) (sm_arc1 m) (sm_center0 m) (sm_center1 m)
       (sm_radius m) (sm_startAngle m) (sm_deltaAngle m) (sm_vFeed m) (sm_duration m)
       (match s_flood s with FloodM7 => true | FloodM9 => false end)
       (match s_mist s with MistM8 => true | MistM9 => false end) sp cw.

(** gcode.cpp:749-753 *)
Definition updatePosition (s : gstate) : gstate := st_cur (map (nthZ (s_next s)) axes) s.

(** gcode.cpp:517-526 *)
Definition calcMotion (b : block) (s : gstate) (m : smotion D) : res (gstate * smotion D) :=
  let '(s, m) := calcNextPosition s m in
  let m := setArcAxisFromPlane s m in
  m <- calcArcCenterAndRadius b s m ;;
  let m := calcArcAngles s m in
  let m := calcTrajectoryLength m in
  let m := calcSpeedAndOrDuration s m in
  let m := calcPeripherals s m in
  Ok (updatePosition s, m).

(** calcMotion for a motion of the given type *)
Definition do_motion (t : motionType) (c : gcode) (m : smotion D) : res (gcode * smotion D) :=
  sm <- calcMotion (g_block c) (g_st c) (sm_with_type t m) ;;
  Ok (on_state (fun _ => fst sm) c, snd sm).

(** gcode.cpp:49-56: the words that are taken out first *)
Definition parse_head (c : gcode) : gcode :=
  let c := getAxisOffsetRadiusWords c in
  let c := getLineNumberWord c in
  let c := setFeedrateMode c in
  let c := setFeedrateValue c in
  let c := setSpindleSpeed c in
  let c := setSpindleMode c in
  let c := setCoolantMode c in
  setOverrideMode c.

(** gcode.cpp:85-116: plane, units, coordinate system, distance mode, G10 *)
Definition parse_modes (c : gcode) : gcode :=
  let c := setArcPlane c in
  let c := setUnitsMode c in
  let c := setWCSMode c in
  let c := setdistanceMode c in
  match search2 (g_block c) cG 100 with
  | None => c
  | Some _ =>
      let b := g_block c in
      match search2 b cL 20, search2 b cL 200, search1 b cP with
      | None, None, _ => set_result RError MissingLForG10 c
      | _, _, Some _ => c
      | _, _, None => set_result RError MissingPForG10 c
      end
  end.

(** gcode.cpp:236-261: M0/M1/M2/M30/M60 do nothing; leftover words are dropped;
    the result is overwritten unconditionally. *)
Definition parse_tail (c : gcode) : gcode :=
  let c := if hasWords (g_block c) then on_block (fun b => with_words b []) c else c in
  set_result OkContextUpdateOnly ENone c.

(** gcode.cpp:118-158: [i] is the index of the G53 word.  Without G0 and G1 the
    code switches on the constant (modalGroupMotion)modalGroup::Motion = 1 = G1
    (and removes index -1, which does nothing). *)
Definition parse_G53 (c : gcode) (m : smotion D) (i : nat) : res (gcode * smotion D) :=
  let coord := s_coord (g_st c) in
  let c := on_state (st_coord G53) c in
  cm <- match search2 (g_block c) cG 0 with
        | Some j => cm <- do_motion traverse c m ;; Ok (g_remove j (fst cm), snd cm)
        | None =>
            match search2 (g_block c) cG 10 with
            | Some j => cm <- do_motion feedLinear c m ;; Ok (g_remove j (fst cm), snd cm)
            | None => do_motion feedLinear c m
            end
        end ;;
  Ok (parse_tail (on_state (st_coord coord) (g_remove i (fst cm))), snd cm).

(** gcode.cpp:160-233 and the tail *)
Definition parse_motion (c : gcode) (m : smotion D) : res (gcode * smotion D) :=
  match search2 (g_block c) cG 0 with
  | Some i =>
      let c := set_result OkContextUpdateAndMotion ENone (on_state (st_motion G0) c) in
      cm <- do_motion traverse c m ;;
      Ok (g_remove i (fst cm), snd cm)
  | None =>
  match search2 (g_block c) cG 10 with
  | Some i =>
      let c := on_state (st_motion G1) c in
      if nltb K zero (letter (g_st c) LtF) then
        cm <- do_motion feedLinear c m ;;
        let c := g_remove i (fst cm) in
        let c := match s_feed (g_st c) with
                 | G93 => on_state (st_letter LtF zero) c
                 | G94 => c
                 end in
        Ok (set_result OkContextUpdateAndMotion ENone c, snd cm)
      else
        Ok (set_result RError InvalidFeedrate (on_block (fun b => with_words b []) c),
            sm_with_type feedLinear m)
  | None =>
  match search2 (g_block c) cG 20 with
  | Some i =>
      let c := on_state (st_motion G2) c in
      cm <- do_motion feedHelicalCW c m ;;
      Ok (set_result OkContextUpdateAndMotion ENone (g_remove i (fst cm)), snd cm)
  | None =>
  match search2 (g_block c) cG 30 with
  | Some i =>
      let c := on_state (st_motion G3) c in
      cm <- do_motion feedHelicalCCW c m ;;
      Ok (set_result OkContextUpdateAndMotion ENone (g_remove i (fst cm)), snd cm)
  | None =>
  if hasAxis (g_block c) then
    let t := match s_motion (g_st c) with
             | G0 => traverse | G1 => feedLinear | G2 => feedHelicalCW | G3 => feedHelicalCCW
             end in
    cm <- do_motion t c m ;;
    Ok (set_result OkContextUpdateAndMotion ENone (fst cm), snd cm)
  else Ok (parse_tail c, m)
  end end end end.

(** gcode.cpp:58-83, the dwell.  [inl]: parseBlock returns here; [inr]: it goes on. *)
Definition parse_dwell (c : gcode) (m : smotion D) : res (gcode * smotion D + gcode) :=
  match search2 (g_block c) cG 40 with
  | None => Ok (inr c)
  | Some i =>
      match search1 (g_block c) cP with
      | None => Ok (inr (set_result RError MissingPForG4 c))
      | Some j =>
          let x := word_number c j in
          if nleb K zero x then
            let c := on_state (st_letter LtP x) c in
            let c := set_result OkContextUpdateAndMotion (g_err c) c in
            cm <- do_motion pauseAndResume c m ;;
            Ok (inl (g_remove j (g_remove i (fst cm)), snd cm))
          else Ok (inr (set_result RError InvalidDwellTime c))
      end
  end.

(** gcode.cpp:32-262 parseBlock *)
Definition parseBlock (c : gcode) (m : smotion D) : res (gcode * smotion D) :=
  let c := set_result EmptyBlock ENone c in
  let m := sm_with_type mt_none m in
  if groupViolation (g_block c) then Ok (set_result RError ModalGroupCollision c, m)
  else if letterViolation (g_block c) then Ok (set_result RError ValueWordCollision c, m)
  else
    r <- parse_dwell (parse_head c) m ;;
    match r with
    | inl out => Ok out
    | inr c =>
        let c := parse_modes c in
        match search2 (g_block c) cG 530 with
        | Some i => parse_G53 c m i
        | None => parse_motion c m
        end
    end.

(** One line: getBlockFromString, then parseBlock into the caller's motion. *)
Definition g_line (c : gcode) (m : smotion D) (l : list N) : res (gcode * smotion D) :=
  c <- g_getBlock c l ;; parseBlock c m.

(** A program: the lines one after the other with the same motion object; the
    outcome of every line is recorded. *)
Fixpoint g_run (c : gcode) (m : smotion D) (ls : list (list N)) : res (gcode * smotion D * list (gcode * smotion D)) :=
  match ls with
  | [] => Ok (c, m, [])
  | l :: r => cm <- g_line c m l ;;
              x <- g_run (fst cm) (snd cm) r ;;
              Ok (fst x, cm :: snd x)
  end.
End G.
