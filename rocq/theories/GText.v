(** Texts, the initial motion object and the binary64 instance, for concrete
    programs in the statements about G-code. *)
Require Import String Ascii List Arith NArith ZArith Bool SpecFloat.
From Verif Require Import Base Num NumSF MotionModel GcodeModel GcodeSpec.
Import ListNotations.

(** The bytes of a text. *)
Definition txt (s : string) : list N := map N_of_ascii (list_ascii_of_string s).

(** simplifiedmotion.h:19-47: a new motion object. *)
Definition sm_new {D} (K : num D) : smotion D :=
  let zero := nofZ K 0 in
  mkSM mt_none zero (repeat zero 3) (repeat zero 3) 3 3 zero zero zero zero zero (ninf K) zero false false zero true.

(** The parser as compiled: binary64; X are the C library's trigonometric
    functions, pi is the binary64 number M_PI. *)
Definition g_f (X : sf_funs) : num sf := aD (sf_arith X).
Definition pi_f : sf := S754_finite false 7074237752028440 (-51).
(** What the parser has done after the lines [ls], starting with a new parser and a
    new motion object. *)
Definition after {D} (K : num D) (pi : D) (ls : list string) : res (@gcode D * smotion D) :=
  match g_run K pi (gcode0 K) (sm_new K) (map txt ls) with
  | Ok r => Ok (fst r)
  | UB => UB
  end.
(** The numbers 0.0, 0.1 .. as texts. *)
Definition digit_char (d : N) : N := (48 + d)%N.
Definition tenth_text (n : N) : list N :=
  [digit_char (n / 1000); digit_char (n / 100 mod 10); digit_char (n / 10 mod 10); 46; digit_char (n mod 10)]%N.
Definition whole_text (n : N) : list N :=
  (if n <? 10 then [digit_char n] else if n <? 100 then [digit_char (n / 10); digit_char (n mod 10)]
   else [digit_char (n / 100); digit_char (n / 10 mod 10); digit_char (n mod 10)])%N.

(** The parser can be in this state, with this motion object: after some program. *)
Definition reached {D} (K : num D) (pi : D) (c : @gcode D) (m : smotion D) : Prop :=
  exists ls outs, g_run K pi (gcode0 K) (sm_new K) ls = Ok (c, m, outs).
(** A word of an arc's centre: I, J, K or R. *)
Definition center_letters : list N := [cI; cJ; cK; cR].

(** The sets of words that exclude each other, as far as this controller checks them. *)
Definition modal_sets : list (list (N * N)) :=
  [[(cG, 0); (cG, 10); (cG, 20); (cG, 30)]; [(cG, 170); (cG, 180); (cG, 190)]; [(cG, 900); (cG, 910)];
   [(cM, 30); (cM, 40); (cM, 50)]; [(cG, 200); (cG, 210)]; [(cG, 930); (cG, 940)];
   [(cG, 530); (cG, 540); (cG, 550); (cG, 560); (cG, 570); (cG, 580); (cG, 590)];
   [(cM, 70); (cM, 90)]; [(cM, 80); (cM, 90)]]%N.

(** Programs that stay in the initial distance mode, units and coordinate system, and
    in which no block with axis words is rejected for its feed rate. *)
Definition plain_line {D} (ws : list (@word D)) (c' : @gcode D) : Prop :=
  no_frame_change ws /\
  (g_err c' = InvalidFeedrate -> forall ch i g, In (ch, i, g) axis_letters -> ~ has_letter ws ch).
Inductive plain_run {D} (K : num D) (pi : D) : @gcode D -> smotion D -> Prop :=
| plain_start : plain_run K pi (gcode0 K) (sm_new K)
| plain_step c m l ws c' m' : plain_run K pi c m -> line_words K l ws -> g_line K pi c m l = Ok (c', m') ->
    plain_line ws c' -> plain_run K pi c' m'.
