(** Specification of a program of straight motions, from its text to the counted steps,
    in the arithmetic of the target: the parser in double precision, planning and
    execution in single precision. *)
Require Import String List Arith NArith ZArith Bool Reals.
From Coq Require Import Floats.SpecFloat.
From Verif Require Import Base Num NumR NumSF MotionModel CtrlModel CtrlSpec FloatSpec GeomSpec ProfileSpec RunSpec GcodeModel GcodeSpec GcodeRSpec GText FloatRunSpec.
Import ListNotations.
Open Scope R_scope.

(** A position of the parser, and the reals its coordinates stand for, in mm. *)
Definition at64 (X : sf_funs) (p : list sf) (x : nat -> R) : Prop := forall i, (i < 3)%nat -> float64 (coord_at (g_f X) p i) (x i).

(** The outcomes a host passes on: those reported as making a motion. *)
Definition passed_on (outs : list (@gcode sf * smotion sf)) : list (@gcode sf * smotion sf) :=
  filter (fun o => match g_res (fst o) with OkContextUpdateAndMotion => true | _ => false end) outs.

(** The machine, per axis: acceleration, deceleration and top speed; the jerk.  Bounds:
    for the accelerations and decelerations, for the speeds of motions, for their lengths. *)
Record shop := mkShop { sh_a : nat -> R; sh_d : nat -> R; sh_v : nat -> R; sh_j : R;
  sh_a0 : R; sh_a1 : R; sh_V0 : R; sh_V1 : R; sh_L0 : R; sh_L1 : R }.
Record shop_ok (X : sf_funs) (M : machine sf) (u : funit) (s : shop) : Prop := {
  so_limits : axis_limits X M (sh_a s) (sh_d s) (sh_v s) (sh_j s);
  so_acc : forall i, (i < 3)%nat -> sh_a0 s <= sh_a s i <= sh_a1 s /\ sh_a0 s <= sh_d s i <= sh_a1 s;
  so_speed : forall i, (i < 3)%nat -> sh_V0 s <= sh_v s i;
  so_range : / 8192 <= sh_a0 s /\ / 8192 <= sh_V0 s /\ sh_V1 s <= 500000 /\ / 4096 <= sh_L0 s /\ sh_L1 s <= 499999;
  so_jerk : sh_j s * sh_V1 s <= 990 * (sh_a0 s * sh_a0 s) /\ sh_j s * (sh_L1 s * sh_L1 s) <= 500000000000 * (sh_V0 s * sh_V0 s * sh_V0 s);
  (* no motion takes longer than [fu_T], nor less than some five ticks *)
  so_brief : 31/10 * sh_L1 s <= sh_V0 s * fu_T u /\ 62/10 * sh_L1 s <= sh_a0 s * (fu_T u * fu_T u);
  so_long : 51/10 * (sh_V1 s * tick_gap (fu_W u) (fu_T u)) <= sh_L0 s;
  (* at most one step per reading of the clock, and slow ends *)
  so_rate : forall i, (i < 3)%nat -> fu_k u i * (101/100 * (sh_V1 s * tick_gap (fu_W u) (fu_T u))) <= 1;
  so_soft : forall i, (i < 3)%nat -> fu_k u i * (201/100 * (sh_a1 s * (last_gap (fu_W u) (fu_T u) * last_gap (fu_W u) (fu_T u)))) <= 1/20 }.

(** The feed of [m], times the override [fo]: unlimited, or between the bounds. *)
Definition feed_fits (s : shop) (fo : sf) (m : smotion sf) (f : option R) : Prop :=
  exists o, float32 fo o /\ / 1000 <= o <= 1000 /\
  match f with
  | None => sm_vFeed m = S754_infinity false /\ forall i, (i < 3)%nat -> 2 * sh_v s i <= sh_V1 s
  | Some f => exists g, float64 (sm_vFeed m) g /\ f = g * o /\ sh_V0 s <= f <= sh_V1 s
  end.
(** A straight motion from [p] to [q] within the bounds. *)
Definition leg_fits (u : funit) (s : shop) (p q : nat -> R) : Prop :=
  sh_L0 s <= distance p q <= sh_L1 s /\
  forall i, (i < 3)%nat -> (q i = p i \/ distance p q <= 100000000000000000000000 * Rabs (q i - p i)) /\
    fu_k u i * (Rabs (p i) + 201/100 * distance p q) + 1 <= fu_B u /\ fu_k u i * (101/100 * distance p q) <= fu_H u /\
    Rabs (p i) + 101/100 * distance p q <= 1048576.
(** The motions passed on, one after the other from [p]: to [stops], with feeds [fs]. *)
Fixpoint stops_fit (X : sf_funs) (u : funit) (s : shop) (fo : sf) (p : nat -> R) (os : list (@gcode sf * smotion sf)) (stops : list (nat -> R)) (fs : list (option R)) : Prop :=
  match os, stops, fs with
  | [], [], [] => True
  | o :: os', q :: stops', f :: fs' => at64 X (s_cur (g_st (fst o))) q /\ leg_fits u s p q /\ feed_fits s fo (snd o) f /\ stops_fit X u s fo q os' stops' fs'
  | _, _, _ => False
  end.
(** [g] goes straight from [p] to [q], to within a millionth of a mm, from rest to rest, with
    limits that keep those of the axes and the feed, and use them. *)
Definition leg_done (u : funit) (s : shop) (p q : nat -> R) (f : option R) (g : leg) : Prop :=
  let P := lg_path g in
  pa_arc P = None /\ (forall i, (i < 3)%nat -> pa_start P i = p i /\ Rabs (pa_delta P i - (q i - p i)) <= / 1000000) /\
  Rabs (pa_len P - distance p q) <= / 1000000 /\
  exists l, executes u g P l /\ limits_kept (sh_a s) (sh_d s) (sh_v s) f (pa_delta P) (pa_len P) l /\ limits_used (sh_a s) (sh_d s) (sh_v s) f (pa_delta P) (pa_len P) l.
Fixpoint legs_done (u : funit) (s : shop) (p : nat -> R) (stops : list (nat -> R)) (fs : list (option R)) (legs : list leg) : Prop :=
  match stops, fs, legs with
  | [], [], [] => True
  | q :: stops', f :: fs', g :: legs' => leg_done u s p q f g /\ legs_done u s q stops' fs' legs'
  | _, _, _ => False
  end.
(** Every motion the lines make is straight and reported. *)
Definition straight_only (outs : list (@gcode sf * smotion sf)) : Prop :=
  Forall (fun o => made_motion (fst o) (snd o) -> is_line_type (sm_type (snd o)) /\ g_res (fst o) = OkContextUpdateAndMotion) outs.
(** The number a decimal text stands for. *)
Definition decimal_value (neg : bool) (ip fp : list N) : R := (if neg then -1 else 1) * (IZR (Z.of_N (dec_val (ip ++ fp))) / 10 ^ length fp).
(** [x] is [y] up to [n] roundings to double precision. *)
Definition nearly (n : R) (x y : R) : Prop := Rabs (x - y) <= n * (Rabs y / 9007199254740992).
(** Zero, or neither absurdly small nor large. *)
Definition sensible (x : R) : Prop := x = 0 \/ / 1000000000000000000000000000000 <= Rabs x <= 1000000000000.
(** *** For examples: the machine of the firmware, at 20 mm/s, motions of 10 to 50 mm. *)
Definition ex_shop : shop := mkShop (fun _ => 200) (fun _ => 200) (fun _ => 30) 600 200 200 20 20 10 50.
Definition ex_unit : funit := mkFU (fun _ => 200) 65536 10100 (9162597 / 549755813888) 15.
Definition ex_prog : list string := ["G21 G90 F1200"; "G1 X50"; "(a comment)"; "X20 Y40.0"]%string.
Definition ex_at (l : list Z) : nat -> R := fun i => IZR (nth i l 0%Z).
Definition ex_line : list N := txt "G20 G1 X2 F10".
