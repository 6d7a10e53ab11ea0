(** What a binary32 number denotes, and the notions used to state properties of the
    controller as it computes on the target, in single precision. *)
Require Import List Arith NArith ZArith Bool Reals.
From Coq Require Import Floats.SpecFloat.
From Verif Require Import Base Num NumSF MotionModel CtrlModel.
Import ListNotations.
Open Scope R_scope.

(** The real number a finite float stands for: (-1)^s * m * 2^e (IEEE 754-2008, 3.3). *)
Definition sf_val (x : spec_float) : option R :=
  match x with
  | S754_zero _ => Some 0
  | S754_finite s m e => Some ((if s then -1 else 1) * IZR (Zpos m) * powerRZ 2 e)
  | _ => None
  end.
(** [x] is a finite binary32 number (24 bit significand, exponent below 128) and stands for [r]. *)
Definition float32 (x : spec_float) (r : R) : Prop := valid_binary 24 128 x = true /\ sf_val x = Some r.

(** The sample clock after [n] ticks of the output timer. *)
Definition ticked {D F} (A : arith D F) (n : N) (s : stime F) : stime F := N.iter n (st_next A) s.
(** At the start of a motion (sampletime.cpp:13-17, 23-26). *)
Definition fresh {F} (s : stime F) (w o : F) : Prop :=
  st_index s = 0%N /\ st_width s = w /\ st_offset s = o /\ st_time s = o.

(** The rounding error, in steps, of a step decision for positions up to [B] steps. *)
Definition slack (B : R) : R := (B + 1) / 8388608.
(** The floats [mms] (mm) stand for the positions [xs] (steps) at [k] steps per mm, none beyond [B] steps. *)
Definition stands (k B : R) (mms : list spec_float) (xs : list R) : Prop :=
  Forall2 (fun mm x => (exists r, float32 mm r /\ x = r * k) /\ Rabs x <= B) mms xs.

(** A quantity between 1/16384 (a 16th of a micrometre, in mm) and 2^20 (a kilometre). *)
Definition usual (x : R) : Prop := / 16384 <= x <= 1048576.
(** Planning, in binary32, of a motion of length [L] that starts and ends at
    standstill: acceleration up to [a], deceleration up to [d] (both positive; the
    code keeps the latter negated), jerk [j] and top speed [vm], the lower of the
    machine's maximum and the feed times the override [fo].  The last three bound
    the time a change of acceleration takes relative to that of a change of speed
    and to that of the motion. *)
Record standing (X : sf_funs) (p : profile sf) (len fo : sf) (a d j vm L : R) : Prop := {
  sd_new : p_doneLength p = nofZ (aF (sf_arith X)) 0 /\ p_doneDuration p = nofZ (aF (sf_arith X)) 0;
  sd_still : ad_vStart (p_left p) = nofZ (aF (sf_arith X)) 0 /\ ad_vEnd (p_right p) = nofZ (aF (sf_arith X)) 0;
  sd_a : float32 (p_aMax p) a; sd_d : float32 (p_dMax p) (- d); sd_j : float32 (p_jMax p) j;
  sd_len : float32 len L;
  sd_cap : exists c, float32 c vm /\
    c = let feed := nmul (aF (sf_arith X)) (p_vFeed p) fo in if nltb (aF (sf_arith X)) (p_vMax p) feed then p_vMax p else feed;
  sd_usual : usual a /\ usual d /\ usual j /\ usual vm /\ usual L;
  sd_ja : j * vm <= 1000 * (a * a);
  sd_jd : j * vm <= 1000 * (d * d);
  sd_jL : j * (L * L) <= 1099511627776 * (vm * vm * vm) }.
