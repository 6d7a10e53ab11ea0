(** Specification of programs with straight motions and arcs, from their text to the
    counted steps, in the arithmetic of the target. *)
Require Import String List Arith NArith ZArith Bool Reals.
From Coq Require Import Floats.SpecFloat.
From Verif Require Import Base Num NumR NumSF MotionModel CtrlModel CtrlSpec FloatSpec GeomSpec ProfileSpec RunSpec GcodeModel GcodeSpec GcodeRSpec GText FloatRunSpec FloatProgSpec FloatArcSpec.
Import ListNotations.
Open Scope R_scope.

(** The library's arc tangent in double precision: an angle of the point (x, y), to within 2^-50. *)
Definition atan_ok (X : sf_funs) : Prop := forall y x ry rx, float64 y ry -> float64 x rx -> 0 < rx * rx + ry * ry ->
  exists a t, float64 (fatan2 X y x) a /\ Rabs (a - t) <= / 1125899906842624 /\ Rabs t <= PI /\
    rx = sqrt (rx * rx + ry * ry) * cos t /\ ry = sqrt (rx * rx + ry * ry) * sin t.
(** The parser's constant pi. *)
Definition pi_ok (x : sf) : Prop := exists r, float64 x r /\ Rabs (r - PI) <= / 1125899906842624.

(** Seen from the centre of [A], [x] is at distance [h] in direction [t]. *)
Definition seen (A : arcp) (x : nat -> R) (t h : R) : Prop := x (ar_0 A) = ar_c0 A + h * cos t /\ x (ar_1 A) = ar_c1 A + h * sin t.
(** The axis that is not in the plane of the arc. *)
Definition third (A : arcp) : nat := (3 - ar_0 A - ar_1 A)%nat.
Definition helix_length (A : arcp) (p q : nat -> R) : R := sqrt (sq (ar_r A * ar_da A) + sq (q (third A) - p (third A))).

(** Where a motion goes, and along which arc, if any; from [p] it is asked to take the way: *)
Record stop := mkStop { to_pos : nat -> R; by_arc : option arcp }.
Definition way (p : nat -> R) (t : stop) : path :=
  let d := fun i => to_pos t i - p i in
  match by_arc t with None => mkPath (distance p (to_pos t)) p d None | Some A => mkPath (helix_length A p (to_pos t)) p d (Some A) end.

(** [m] asks for the arc [A] from [p] to [q], the positions [xp] and [xq] of the parser: about its
    centre, in its direction, by at most one turn.  Whether it is a little or nearly a
    whole turn must be clear, unless the positions are the same: then it is a whole turn. *)
Record arc_asked (X : sf_funs) (m : smotion sf) (xp xq : list sf) (p q : nat -> R) (A : arcp) (hp hq : R) : Prop := {
  aa_plane : sm_arc0 m = ar_0 A /\ sm_arc1 m = ar_1 A;
  aa_circle : float64 (sm_center0 m) (ar_c0 A) /\ float64 (sm_center1 m) (ar_c1 A) /\ float64 (sm_radius m) (ar_r A);
  aa_from : seen A p (ar_a0 A) hp;
  aa_to : seen A q (ar_a0 A + ar_da A) hq;
  aa_start : Rabs (ar_a0 A) <= PI;
  aa_turn : sm_type m = feedHelicalCW /\ ar_da A < 0 \/ sm_type m = feedHelicalCCW /\ 0 < ar_da A;
  aa_clear : / 1000000 <= Rabs (ar_da A) <= 2 * PI - / 1000000 \/
    Rabs (ar_da A) = 2 * PI /\ forall i, i = ar_0 A \/ i = ar_1 A -> coord_at (g_f X) xq i = coord_at (g_f X) xp i }.
(** An arc within the bounds. *)
Record arc_fits (u : funit) (s : shop) (p q : nat -> R) (A : arcp) (hp hq : R) : Prop := {
  af_radius : / 1000 <= ar_r A <= 400000 /\ sh_V0 s * sh_V0 s <= sh_a0 s * ar_r A;
  (* [p] and [q] are at the radius from the centre, to a small part of a step *)
  af_circle : ar_r A <= 2 * hp /\ ar_r A <= 2 * hq /\ hp <= 2 * ar_r A /\ hq <= 2 * ar_r A /\
    forall i, (i < 3)%nat -> fu_k u i * Rabs (hp - ar_r A) <= / 2500 /\ fu_k u i * Rabs (hq - ar_r A) <= / 2500;
  af_length : sh_L0 s <= helix_length A p q <= sh_L1 s;
  af_third : let i := third A in (q i = p i \/ helix_length A p q <= 100000000000000000000000 * Rabs (q i - p i)) /\
    fu_k u i * (Rabs (p i) + 201/100 * helix_length A p q) + 1 <= fu_B u /\ Rabs (p i) + 101/100 * helix_length A p q <= 1048576;
  af_range : forall i, i = ar_0 A \/ i = ar_1 A -> fu_k u i * (Rabs (centre A i) + ar_r A * (8 + 2 * Rabs (ar_da A))) + 1 <= fu_B u /\ Rabs (centre A i) + ar_r A <= 1048576;
  af_steps : forall i, (i < 3)%nat -> fu_k u i * (101/100 * helix_length A p q) <= fu_H u }.

(** The motion [m] asks for the way to [t], within the bounds. *)
Definition way_fits (X : sf_funs) (u : funit) (s : shop) (m : smotion sf) (xp xq : list sf) (p : nat -> R) (t : stop) : Prop :=
  match by_arc t with
  | None => is_line_type (sm_type m) /\ leg_fits u s p (to_pos t)
  | Some A => exists hp hq, arc_asked X m xp xq p (to_pos t) A hp hq /\ arc_fits u s p (to_pos t) A hp hq
  end.
(** The motions passed on, one after the other from [p]. *)
Fixpoint route_fits (X : sf_funs) (u : funit) (s : shop) (fo : sf) (xp : list sf) (p : nat -> R) (os : list (@gcode sf * smotion sf)) (stops : list stop) (fs : list (option R)) : Prop :=
  match os, stops, fs with
  | [], [], [] => True
  | o :: os', t :: stops', f :: fs' => let xq := s_cur (g_st (fst o)) in
      at64 X xq (to_pos t) /\ way_fits X u s (snd o) xp xq p t /\ feed_fits s fo (snd o) f /\ route_fits X u s fo xq (to_pos t) os' stops' fs'
  | _, _, _ => False
  end.
(** Every motion the lines make is reported. *)
Definition reported (outs : list (@gcode sf * smotion sf)) : Prop :=
  Forall (fun o => made_motion (fst o) (snd o) -> g_res (fst o) = OkContextUpdateAndMotion) outs.

(** [P] is [E], everywhere to within a millionth of a mm. *)
Definition same_way (P E : path) : Prop := Rabs (pa_len P - pa_len E) <= / 1000000 /\
  forall i x, (i < 3)%nat -> 0 <= x <= 1 -> Rabs (path_pos P i (x * pa_len P) - path_pos E i (x * pa_len E)) <= / 1000000.
(** The share of an axis in the motion: all of it in the plane of an arc. *)
Definition span (P : path) (i : nat) : R := if on_arc P i then pa_len P else pa_delta P i.
(** The limits [l] keep those of the axes, and the acceleration towards the centre of an arc, *)
Definition within (s : shop) (f : option R) (P : path) (l : flimits) : Prop :=
  limits_kept (sh_a s) (sh_d s) (sh_v s) f (span P) (pa_len P) l /\
  match pa_arc P with None => True | Some A => forall i, (i < 3)%nat -> on_arc P i = true -> fl_vm l * fl_vm l / ar_r A <= (1 + / 250000) * sh_a s i end.
(** and use them. *)
Definition used (s : shop) (f : option R) (P : path) (l : flimits) : Prop :=
  (exists i, (i < 3)%nat /\ (1 - / 250000) * sh_a s i <= along (span P) (pa_len P) (fl_a l) i) /\
  (exists i, (i < 3)%nat /\ (1 - / 250000) * sh_d s i <= along (span P) (pa_len P) (fl_d l) i) /\
  ((exists i, (i < 3)%nat /\ (1 - / 250000) * sh_v s i <= along (span P) (pa_len P) (fl_vm l) i) \/ (exists g, f = Some g /\ (1 - / 250000) * g <= fl_vm l) \/
   match pa_arc P with None => False | Some A => exists i, (i < 3)%nat /\ on_arc P i = true /\ (1 - / 250000) * sh_a s i <= fl_vm l * fl_vm l / ar_r A end).
(** [g] takes the way asked for, from rest to rest, within the limits. *)
Definition way_done (u : funit) (s : shop) (p : nat -> R) (t : stop) (f : option R) (g : leg) : Prop :=
  same_way (lg_path g) (way p t) /\ exists l, executes u g (lg_path g) l /\ within s f (lg_path g) l /\ used s f (lg_path g) l.
Fixpoint route_done (u : funit) (s : shop) (p : nat -> R) (stops : list stop) (fs : list (option R)) (legs : list leg) : Prop :=
  match stops, fs, legs with
  | [], [], [] => True
  | t :: stops', f :: fs', g :: legs' => way_done u s p t f g /\ route_done u s (to_pos t) stops' fs' legs'
  | _, _, _ => False
  end.

(** *** For examples: a library with exact functions, then rounded, and a program. *)
Definition rounded2 (f : R -> R -> R) (y x : sf) : sf :=
  match sf_val y, sf_val x with Some a, Some b => binary_normalize 53 1024 (up (f a b * 1152921504606846976)) (-60) false | _, _ => S754_nan end.
Definition exact_funs (X : sf_funs) : sf_funs := mkFuns (rounded cos) (rounded sin) (fatan2f X) (fcos X) (fsin X) (rounded2 ratan2).
Definition ex_bends : list string := ["G21 G90 F1200"; "G1 X20"; "G3 X0 Y20 I-20 J0"; "G2 X20 Y0 Z10 I0 J-20"]%string.
(** A quarter turn to the left about the origin, and one back. *)
Definition ex_left : arcp := mkArc 0 1 0 0 20 0 (PI / 2).
Definition ex_back : arcp := mkArc 0 1 0 0 20 (PI / 2) (- (PI / 2)).
Definition ex_bend : list N := txt "G20 G3 X0 Y8 I-3 J4 F10".
